(* Reading one fragment (rust/lance/src/dataset/fragment.rs): which files are opened for a
   projection, the reader of nulls for columns that no file has, the merge of the readers'
   batches (rust/lance-table/src/utils/stream.rs), ranges and deletions.
   Simplifications: columns are flat and named by field id (fragment.rs intersects schemas by
   name; top-level names are unique), a cell is null or an integer; a file reader yields its
   rows in batches of exactly the batch size (the contract of the v2 reader); the debug_assert
   on task sizes is off, so differing sizes are the error of RecordBatch::merge. *)
From Coq Require Import List Arith NArith ZArith Bool Lia.
From Verif Require Import Lib AMap RowIdsModel SerdeModel ReadParamsModel TreeMapModel DeletionModel StreamModel.
Import ListNotations.
Local Open Scope nat_scope.

Notation value := (option Z).
(* one row of a batch: field id and value *)
Notation part := (list (Z * value)).
Notation batch := (list part).
(* a data file: the fields it holds (tombstones are negative), its length, its columns *)
Record rfile := { rf_fields : list Z; rf_rows : nat; rf_col : Z -> list value }.
(* a fragment *)
Record rfrag := { rg_id : N; rg_phys : nat; rg_files : list rfile; rg_dv : option dv; rg_seq : option rowseq }.

Definition memZ (x : Z) (l : list Z) : bool := existsb (Z.eqb x) l.

(* batches of at most [bs] rows *)
Fixpoint chunks_f {A} (fuel bs : nat) (l : list A) : list (list A) :=
  match fuel, l with
  | _, [] => []
  | O, _ => []
  | S k, _ => firstn bs l :: chunks_f k bs (skipn bs l)
  end.
Definition chunks {A} (bs : nat) (l : list A) : list (list A) := chunks_f (length l) bs l.

(* GenericFileReader: v2_adapter::Reader 272-293, NullReader 427-437 *)
Inductive reader := FileR (f : rfile) (fields : list Z) | NullR (fields : list Z) (num_rows : nat).
Definition r_fields (r : reader) : list Z := match r with FileR _ fs => fs | NullR fs _ => fs end.

(* the rows at some offsets of a file *)
Definition file_rows (f : rfile) (fields : list Z) (offs : list nat) : batch :=
  map (fun o => map (fun c => (c, nth o (rf_col f c) None)) fields) offs.
(* NullReader::batch 439-446 *)
Definition null_rows (fields : list Z) (n : nat) : batch := repeat (map (fun c => (c, None)) fields) n.

(* read_range_tasks: v2 298-322, NullReader 451-476 *)
Definition read_range_tasks (r : reader) (a b bs : nat) : list batch :=
  match r with
  | FileR f fs => chunks bs (file_rows f fs (rng a b))
  | NullR fs _ => chunks bs (null_rows fs (b - a))
  end.
(* read_all_tasks: v2 324-347, NullReader 478-484 *)
Definition read_all_tasks (r : reader) (bs : nat) : list batch :=
  match r with
  | FileR f fs => chunks bs (file_rows f fs (rng 0 (rf_rows f)))
  | NullR fs n => chunks bs (null_rows fs n)
  end.
(* take_all_tasks: v2 349-374, NullReader 486-494 *)
Definition take_all_tasks (r : reader) (idx : list nat) (bs : nat) : list batch :=
  match r with
  | FileR f fs => chunks bs (file_rows f fs idx)
  | NullR fs _ => chunks bs (null_rows fs (length idx))
  end.

(* open_reader 782-867: the fields of the projection that the file holds *)
Definition open_reader (f : rfile) (proj : list Z) : option reader :=
  match filter (fun c => memZ c (rf_fields f)) proj with
  | [] => None
  | fs => Some (FileR f fs)
  end.
(* count_rows(None) 918-926 *)
Definition count_rows (g : rfrag) : nat := rg_phys g - match rg_dv g with Some d => dv_len d | None => 0 end.
(* open_readers 869-902 *)
Definition open_readers (g : rfrag) (proj : list Z) : list reader :=
  let files := flat_map (fun f => match open_reader f proj with Some r => [r] | None => [] end) (rg_files g) in
  let present := filter (fun c => (0 <=? c)%Z) (flat_map r_fields files) in
  match filter (fun c => negb (memZ c present) && (0 <=? c)%Z) proj with
  | [] => files
  | missing => files ++ [NullR missing (count_rows g)]
  end.

(* lance-arrow/src/lib.rs:584-640 on flat columns: the left column wins *)
Definition merge_part (l r : part) : part := l ++ filter (fun p => negb (memZ (fst p) (map fst l))) r.
(* RecordBatch::merge, lib.rs:462-473 *)
Fixpoint merge_rows (a b : batch) : option batch :=
  match a, b with
  | [], [] => Some []
  | x :: a', y :: b' => omap (cons (merge_part x y)) (merge_rows a' b')
  | _, _ => None
  end.
(* MergeStream::emit, stream.rs:40-54 *)
Fixpoint emit (acc : batch) (rest : list batch) : option batch :=
  match rest with [] => Some acc | b :: t => obind (merge_rows acc b) (fun x => emit x t) end.
(* one batch from each stream; none as soon as a stream has ended *)
Fixpoint heads (ss : list (list batch)) : option (list batch * list (list batch)) :=
  match ss with
  | [] => Some ([], [])
  | [] :: _ => None
  | (b :: s) :: t => omap (fun '(bs, rest) => (b :: bs, s :: rest)) (heads t)
  end.
(* merge_streams, stream.rs:59-112; fuel: the length of the first stream *)
Fixpoint merge_f (fuel : nat) (ss : list (list batch)) : list (option batch) :=
  match fuel with
  | O => []
  | S k => match heads ss with
           | Some (b :: bs, rest) => emit b bs :: merge_f k rest
           | _ => []
           end
  end.
Definition merge_streams (ss : list (list batch)) : list (option batch) :=
  merge_f (match ss with s :: _ => length s | [] => 0 end) ss.

(* what the caller asks of the reader: FragReadConfig 530-560, make_deletions_null *)
Record rconf := { k_id : bool; k_addr : bool; k_null : bool }.
(* project_by_schema to the output schema, 2035-2049 *)
Definition project_part (proj : list Z) (p : part) : option part :=
  sequence_opt (map (fun c => omap (fun q => (c, snd q)) (find (fun q => Z.eqb (fst q) c) p)) proj).
Definition project_row (proj : list Z) (r : orow part) : option (orow part) :=
  omap (fun p => {| o_val := p; o_id := o_id r; o_addr := o_addr r |}) (project_part proj (o_val r)).

(* new_read_impl 1958-2052; the batches are collected, an error in one is the result *)
Definition new_read_impl (g : rfrag) (proj : list Z) (k : rconf) (p : params) (bs : nat) (tasks : reader -> list batch)
  : outcome (list (orow part)) :=
  if negb (valid_given_len p (rg_phys g)) then Err else
  let merged := match proj with
    | [] => Some (chunks bs (repeat [] (length (to_offsets_total p (rg_phys g)))))
    | _ => sequence_opt (merge_streams (map tasks (open_readers g proj)))
    end in
  match merged with
  | None => Err
  | Some batches =>
      let c := {| c_params := p; c_with_id := k_id k; c_with_addr := k_addr k; c_dv := rg_dv g; c_seq := rg_seq g; c_null := k_null k |} in
      match wrap_batches batches 0 (rg_id g) c with
      | Ok rows => match sequence_opt (map (project_row proj) rows) with Some out => Ok out | None => Err end
      | Err => Err
      | Panic => Panic
      end
  end.

(* read_range 2098-2100 with do_read_range 2070-2092 *)
Definition read_range (g : rfrag) (proj : list Z) (k : rconf) (a b bs : nat) : outcome (list (orow part)) :=
  let '(s, e) := match rg_dv g with
    | Some d => let '(s, e) := patch_range (dv_sorted_iter d) (N.of_nat a) (N.of_nat b) in (N.to_nat s, N.to_nat e)
    | None => (a, b)
    end in
  new_read_impl g proj k (PRange s e) bs (fun r => read_range_tasks r s e bs).
(* take_range 2106-2108 *)
Definition take_range (g : rfrag) (proj : list Z) (k : rconf) (a b bs : nat) : outcome (list (orow part)) :=
  new_read_impl g proj k (PRange a b) bs (fun r => read_range_tasks r a b bs).
(* read_all 2110-2114 *)
Definition read_all (g : rfrag) (proj : list Z) (k : rconf) (bs : nat) : outcome (list (orow part)) :=
  new_read_impl g proj k PFull bs (fun r => read_all_tasks r bs).
(* take 2133-2140 *)
Definition take (g : rfrag) (proj : list Z) (k : rconf) (idx : list nat) (bs : nat) : outcome (list (orow part)) :=
  new_read_impl g proj k (PIdx idx) bs (fun r => take_all_tasks r idx bs).
