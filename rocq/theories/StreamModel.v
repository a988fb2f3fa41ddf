(* Attaching row ids / row addresses to the batches of a fragment read and
   applying the deletion vector (rust/lance-table/src/utils/stream.rs). *)
From Coq Require Import List Arith NArith Bool Lia.
From Verif Require Import Lib AMap RowIdsModel SerdeModel ReadParamsModel TreeMapModel DeletionModel.
Import ListNotations.
Local Open Scope nat_scope.

(* one cell of the _rowid / _rowaddr column *)
Inductive cell := NoCol | CNull | CVal (v : N).
Record orow (A : Type) := { o_val : A; o_id : cell; o_addr : cell }.
Arguments o_val {A}. Arguments o_id {A}. Arguments o_addr {A}. 

(* stream.rs:161-179 (total_num_rows is not used by the function) *)
Record rid_config := {
  c_params : params; c_with_id : bool; c_with_addr : bool;
  c_dv : option dv; c_seq : option rowseq; c_null : bool }.

(* stream.rs:115-158: all rows deleted gives an empty batch, otherwise the id
   and address cells of deleted rows become null *)
Definition null_cell (c : cell) : cell := match c with NoCol => NoCol | _ => CNull end.
Definition deletions_as_nulls {A} (rows : list (orow A)) (mask : list bool) : list (orow A) :=
  if forallb negb mask then []
  else map (fun '(r, keep) => if keep : bool then r
                              else {| o_val := o_val r; o_id := null_cell (o_id r); o_addr := null_cell (o_addr r) |})
           (combine rows mask).
(* arrow filter_record_batch *)
Definition filter_mask {A} (rows : list A) (mask : list bool) : list A :=
  map fst (filter snd (combine rows mask)).

Definition zip_cells {A} (batch : list A) (ids addrs : option (list N)) : list (orow A) :=
  map (fun '(i, a) => {| o_val := a;
          o_id := match ids with Some l => match nth_error l i with Some v => CVal v | None => CNull end | None => NoCol end;
          o_addr := match addrs with Some l => match nth_error l i with Some v => CVal v | None => CNull end | None => NoCol end |})
      (combine (seq 0 (length batch)) batch).

(* stream.rs:181-272; Panic for the unwraps and for slicing a row-id sequence
   out of range; Err when a column of the wrong length is attached *)
Definition apply_row_id_and_deletes {A} (batch : list A) (batch_offset : nat) (frag : N) (c : rid_config)
  : outcome (list (orow A)) :=
  let del := match c_dv c with Some NoDel => None | x => x end in
  let has_del := match del with Some _ => true | None => false end in
  let fetch_addr := c_with_addr c || (c_with_id c && match c_seq c with None => true | _ => false end) || has_del in
  let n := length batch in
  let addrs : outcome (option (list N)) :=
    if fetch_addr then
      match p_slice (c_params c) batch_offset n with
      | Some p' => match to_offsets p' with
                   | Some offs => Ok (Some (map (fun o => new_from_parts frag (N.of_nat o)) offs))
                   | None => Panic end
      | None => Panic end
    else Ok None in
  match addrs with
  | Panic => Panic | Err => Err
  | Ok addrs =>
      let ids : outcome (option (list N)) :=
        if c_with_id c then
          match c_seq c with
          | Some q => match slice_ids q batch_offset n with Ok l => Ok (Some l) | Err => Err | Panic => Panic end
          | None => Ok addrs
          end
        else Ok None in
      match ids with
      | Panic => Panic | Err => Err
      | Ok ids =>
          let mask := match del, addrs with
                      | Some d, Some a => dv_build_predicate d a
                      | _, _ => None end in
          let bad := match ids with Some l => negb (length l =? n) | None => false end
                     || (c_with_addr c && match addrs with Some l => negb (length l =? n) | None => true end) in
          if bad then Err else
          let rows := zip_cells batch ids (if c_with_addr c then addrs else None) in
          match mask with
          | None => Ok rows
          | Some m => if c_null c then Ok (deletions_as_nulls rows m) else Ok (filter_mask rows m)
          end
      end
  end.

(* stream.rs:279-300: batches are numbered by the running row count *)
Fixpoint wrap_batches {A} (batches : list (list A)) (offset : nat) (frag : N) (c : rid_config)
  : outcome (list (orow A)) :=
  match batches with
  | [] => Ok []
  | b :: t => match apply_row_id_and_deletes b offset frag c with
              | Ok r => match wrap_batches t (offset + length b) frag c with
                        | Ok r' => Ok (r ++ r') | e => e end
              | e => e
              end
  end.
