(* C26 and the selection part of C07: read requests.
   Examples: slice_expand_ex, select_ex in ReadParamsProofs.v. *)
From Coq Require Import List Arith NArith ZArith Bool Permutation Sorted.
From Verif Require Import Lib RowIdsModel RowIdsSpec ReadParamsModel ReadParamsProofs.
Import ListNotations.
Local Open Scope nat_scope.

(* slicing a request then expanding it = expanding then slicing the list *)
Theorem C26_slice_then_expand : forall p total s l,
  (forall a b, p = PRange a b -> a <= b) ->
  s + l <= length (to_offsets_total p total) ->
  exists p', p_slice p s l = Some p' /\
             to_offsets p' = Some (firstn l (skipn s (to_offsets_total p total))).
Proof. exact slice_then_expand. Qed.
Print Assumptions C26_slice_then_expand.

(* requests of known size are never sliced past their end *)
Theorem C26_slice_rejects_out_of_bounds : forall p total s l,
  (forall s', p <> PFrom s') -> p <> PFull -> (forall a b, p = PRange a b -> a <= b) ->
  length (to_offsets_total p total) < s + l -> p_slice p s l = None.
Proof. exact slice_rejects. Qed.
Print Assumptions C26_slice_rejects_out_of_bounds.

Theorem C26_valid_iff_in_bounds : forall p len,
  (valid_given_len p len = true -> forall o, In o (to_offsets_total p len) -> o < len) /\
  (to_offsets_total p len <> [] -> (forall o, In o (to_offsets_total p len) -> o < len) ->
   valid_given_len p len = true).
Proof. exact valid_iff_in_bounds. Qed.
Print Assumptions C26_valid_iff_in_bounds.

Theorem C07_select_row_ids : forall q p, seq_wf q ->
  (forall a b, p = PRange a b -> a <= b) ->
  match pick (seq_iter q) (to_offsets_total p (length (seq_iter q))) with
  | Some ids => select_row_ids q p = Ok ids \/ (exists s, p = PFrom s /\ length (seq_iter q) < s)
                \/ (exists a, p = PRange a a /\ length (seq_iter q) < a)
  | None => select_row_ids q p = Err
  end.
Proof. exact select_row_ids_spec. Qed.
Print Assumptions C07_select_row_ids.

(* RangeFrom past the end panics instead of returning an error *)
Theorem C07_select_from_past_end_panics_refuted : select_row_ids [Range 0 5] (PFrom 6) = Panic.
Proof. exact select_from_past_end. Qed.
Print Assumptions C07_select_from_past_end_panics_refuted.
