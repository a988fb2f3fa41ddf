(* C28: fragments by row offset. *)
From Coq Require Import List Arith NArith ZArith Bool Permutation Sorted.
From Verif Require Import Lib AMap RowIdsModel SerdeModel ReadParamsModel TreeMapModel DeletionModel StreamModel TakeModel OffsetsProofs.
Import ListNotations.
Local Open Scope nat_scope.

(* missing: empty fragments and empty ranges (refuted below) *)
Theorem C28_offset_range_partial : forall fs r start end_, (forall f, In f fs -> 0 < fm_rows f) -> start < end_ ->
  bsearch_ok (fragment_offsets fs) start r ->
  fragments_by_offset_range fs r start end_ = overlapping_frags fs start end_.
Proof. exact @fragments_by_offset_range_spec. Qed.
Print Assumptions C28_offset_range_partial.

Theorem C28_empty_fragment_refuted : exists fs r, bsearch_ok (fragment_offsets fs) 0 r /\
  fragments_by_offset_range fs r 0 5 = [] /\ overlapping_frags fs 0 5 <> [].
Proof. exact @offset_range_empty_fragment_refuted. Qed.
Print Assumptions C28_empty_fragment_refuted.

Theorem C28_empty_range_refuted : exists fs r start, (forall f, In f fs -> 0 < fm_rows f) /\
  bsearch_ok (fragment_offsets fs) start r /\ overlapping_frags fs start start = [] /\
  fragments_by_offset_range fs r start start <> [].
Proof. exact @offset_range_empty_range_refuted. Qed.
Print Assumptions C28_empty_range_refuted.
