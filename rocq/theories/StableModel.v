(* Compaction of datasets with stable row ids: the ids of the rows move with them.
   The scan of the old fragments in order (rows of a fragment without its deleted
   ones) and the writer (which cuts that stream into new fragments) are proved
   elsewhere (C18, C25, C91); here the cuts are arbitrary. *)
From Coq Require Import List Arith NArith Bool.
From Verif Require Import Lib RowIdsModel.
Import ListNotations.
Local Open Scope nat_scope.

(* Fragment (lance-table/src/format/fragment.rs): id, row ids, the deleted offsets and
   the values of the physical rows.  The deletion vector is the list that
   DeletionVector::into_iter gives (deletion.rs 263-280: sorted, also for a set) *)
Record ofrag (V : Type) := { o_id : N; o_seq : rowseq; o_del : option (list nat); o_rows : list V }.
Arguments o_id {V}. Arguments o_seq {V}. Arguments o_del {V}. Arguments o_rows {V}. Arguments Build_ofrag {V}.
(* frag.id as u32 *)
Definition id32 (n : N) : N := (n mod 4294967296)%N.
(* lance/src/dataset/rowids.rs 59-68 load_row_id_sequences: the pairs come in any order
   (buffer_unordered): the functions below take the list in the order it came *)
Definition loaded_pairs {V} (frags : list (ofrag V)) : list (N * rowseq) := map (fun f => (id32 (o_id f), o_seq f)) frags.
(* optimize.rs 780-783: old_fragments.iter().position(..) *)
Fixpoint frag_position {V} (frags : list (ofrag V)) (id : N) : option nat :=
  match frags with
  | [] => None
  | f :: t => if (id32 (o_id f) =? id)%N then Some 0 else omap S (frag_position t id)
  end.
(* sort_by_key (a stable sort) on keys that are computed first *)
Fixpoint insert_key {A} (x : nat * A) (l : list (nat * A)) : list (nat * A) :=
  match l with
  | [] => [x]
  | y :: t => if fst x <=? fst y then x :: l else y :: insert_key x t
  end.
Definition sort_key {A} (l : list (nat * A)) : list (nat * A) := fold_right insert_key [] l.
(* optimize.rs 779-784; None is the panic of expect *)
Definition sort_back {V} (frags : list (ofrag V)) (loaded : list (N * rowseq)) : option (list (N * rowseq)) :=
  omap (fun l => map snd (sort_key l)) (sequence_opt (map (fun p => omap (fun k => (k, p)) (frag_position frags (fst p))) loaded)).
(* optimize.rs 787-799: mask the deletions of the fragment at the same place; None: a
   panic of RowIdSequence::mask *)
Definition mask_all {V} (seqs : list (N * rowseq)) (frags : list (ofrag V)) : option (list rowseq) :=
  sequence_opt (map (fun p : (N * rowseq) * ofrag V =>
    match o_del (snd p) with Some ds => seq_mask (snd (fst p)) ds | None => Some (snd (fst p)) end) (combine seqs frags)).
(* optimize.rs 770-829 rechunk_stable_row_ids; sizes are the physical rows of the new
   fragments.  The debug_assert of 801-811 is left out; the result is the sequences
   before write_row_ids (C09) *)
Definition rechunk_stable {V} (loaded : list (N * rowseq)) (frags : list (ofrag V)) (sizes : list nat) : option (rc_result (list rowseq)) :=
  obind (sort_back frags loaded) (fun seqs => omap (fun masked => rechunk_sequences masked sizes) (mask_all seqs frags)).
