(* The check of non-null fields when a batch is written (rust/lance-file/src/v2/writer.rs 241-263, 316-345, 353-365;
   the same two functions in rust/lance-file/src/writer.rs 145-163).
   Simplifications: of an array only what ArrayData holds about nulls and children is kept (a slice of a struct array has
   sliced children, a slice of a list array keeps all items and has the offsets of the slice, as in arrow-rs 53); a fixed size list
   is a leaf, as its items are no children of the lance field (lance-core/src/datatypes/field.rs 914-922); of the write only
   which array is stored for which field is kept. *)
From Coq Require Import String List Arith NArith Bool Lia.
From Verif Require Import Lib PageModel.
Import ListNotations.
Local Open Scope nat_scope.

(* lance_core::datatypes::Field *)
Inductive nfield := NF (name : string) (nullable : bool) (children : list nfield).
Definition nf_name (f : nfield) : string := let '(NF n _ _) := f in n.
Definition nf_nullable (f : nfield) : bool := let '(NF _ b _) := f in b.
Definition nf_children (f : nfield) : list nfield := let '(NF _ _ cs) := f in cs.
(* arrays: fixed width values, strings and fixed size lists; the null type; dictionaries (codes and which entries of the
   dictionary are not null); structs; lists (ranges of the items) *)
Inductive narr :=
| ALeaf (n : nat) (valid : option (list bool))
| ANulls (n : nat)
| ADict (codes : list nat) (valid : option (list bool)) (dict : option (list bool))
| AStruct (n : nat) (valid : option (list bool)) (children : list narr)
| AList (ranges : list (nat * nat)) (valid : option (list bool)) (items : narr).
Definition alen (a : narr) : nat := match a with ALeaf n _ | ANulls n | AStruct n _ _ => n | ADict c _ _ => length c | AList r _ _ => length r end.
(* ArrayData::null_count: the null buffer; an array of the null type has none *)
Definition nulls_in (valid : option (list bool)) : nat := match valid with None => 0 | Some l => length (filter negb l) end.
Definition anulls (a : narr) : option (list bool) := match a with ALeaf _ v | ADict _ v _ | AStruct _ v _ | AList _ v _ => v | ANulls _ => None end.
Definition null_count (a : narr) : nat := nulls_in (anulls a).
(* ArrayData::child_data *)
Definition child_data (a : narr) : list narr :=
  match a with
  | ALeaf _ _ | ANulls _ => []
  | ADict _ _ d => [ALeaf (match d with None => 0 | Some l => length l end) d]
  | AStruct _ _ cs => cs
  | AList _ _ c => [c]
  end.
(* verify_field_nullability 241-251 *)
Fixpoint verify (f : nfield) (a : narr) : bool :=
  match f with
  | NF _ nullable fs =>
      (nullable || (null_count a =? 0)) &&
      (fix all (fs : list nfield) (cs : list narr) : bool := match fs, cs with f :: fs', c :: cs' => verify f c && all fs' cs' | _, _ => true end) fs (child_data a)
  end.
Definition batch := list (string * narr).
(* verify_nullability_constraints 253-263 *)
Fixpoint verify_batch (schema : list nfield) (b : batch) : bool := match b, schema with c :: b', f :: s' => verify f (snd c) && verify_batch s' b' | _, _ => true end.
(* RecordBatch::column_by_name: the first of the name *)
Definition column_by_name (b : batch) (n : string) : option narr := omap snd (find (fun c => String.eqb (fst c) n) b).
(* write_batch 353-365 with encode_batch 316-345: the arrays handed to the encoders of the fields; [rows] is num_rows *)
Definition write_batch (schema : list nfield) (b : batch) (rows : nat) : option (list narr) :=
  if verify_batch schema b then
    if rows =? 0 then Some []
    else if N.ltb 4294967295 (N.of_nat rows) then None
    else (fix each (fs : list nfield) : option (list narr) := match fs with [] => Some [] | f :: t => obind (column_by_name b (nf_name f)) (fun a => omap (cons a) (each t)) end) schema
  else None.
