(* C01-C08: row-id segments and sequences.  Only property theorems here; see
   RowIdsSpec.v for the vocabulary and RowIdsExamples.v for concrete cases. *)
From Coq Require Import List Arith NArith Bool.
From Verif Require Import Lib RowIdsModel RowIdsSpec EncArrProofs SegProofs SeqProofs RechunkProofs RowIdsExamples.
Import ListNotations.

(* C01 (hypotheses met: ex_lossless_hyps; the five layouts: ex_range .. ex_array) *)
Theorem C01_segment_encoding_lossless : forall l, valid_ids l -> NoDup l ->
  exists s, seg_from_slice l = Some s /\ seg_iter s = l /\ seg_wf s.
Proof. exact seg_encode_lossless. Qed.
Print Assumptions C01_segment_encoding_lossless.

(* the two excluded inputs abort instead of encoding something wrong *)
Theorem C01_excluded_inputs_abort : seg_from_slice [u64_max] = None /\ seg_from_slice [5; 5]%N = None.
Proof. exact (conj seg_encode_u64max_overflow seg_encode_duplicates_panic). Qed.
Print Assumptions C01_excluded_inputs_abort.

(* C02 (example: enc_array_ex) *)
Theorem C02_compact_array_is_its_list : forall l, Forall (fun x => (x < two64)%N) l -> array_like l (ea_from l).
Proof. exact enc_array_from_like. Qed.
Print Assumptions C02_compact_array_is_its_list.

Theorem C02_every_compact_array : forall a, ea_wf a -> array_like (ea_iter a) a.
Proof. exact enc_array_like. Qed.
Print Assumptions C02_every_compact_array.

Theorem C02_compact_array_from_range : forall mn mx, (mn <= mx)%N ->
  exists a, ea_from_range mn mx = Some a /\ ea_iter a = nrange mn (N.to_nat (mx - mn)).
Proof. exact ea_from_range_iter. Qed.
Print Assumptions C02_compact_array_from_range.

(* C03 (examples: ex_wf_holes, ex_wf_bitmap) *)
Theorem C03_segment_len_get_position : forall s, seg_wf s ->
  seg_len s = length (seg_iter s) /\
  (forall i, seg_get s i = nth_error (seg_iter s) i) /\
  (forall v i, seg_position s v = Some i <-> first_index (seg_iter s) v i) /\
  (forall v, seg_position s v = None <-> ~ In v (seg_iter s)).
Proof. exact seg_len_get_position. Qed.
Print Assumptions C03_segment_len_get_position.

(* C04 (example: ex_delete) *)
Theorem C04_delete_removes_exactly_the_ids : forall q ids,
  seq_wf q -> NoDup (seq_iter q) -> NoDup ids ->
  exists q', seq_delete q ids = Some q' /\ seq_wf q' /\ seq_iter q' = without_ids ids (seq_iter q).
Proof. exact seq_delete_spec. Qed.
Print Assumptions C04_delete_removes_exactly_the_ids.

Theorem C04_delete_with_repeated_id_refuted :
  exists q ids q', seq_wf q /\ NoDup (seq_iter q) /\ seq_delete q ids = Some q' /\
    exists v, In v ids /\ In v (seq_iter q').
Proof. exact seq_delete_duplicates_wrong. Qed.
Print Assumptions C04_delete_with_repeated_id_refuted.

(* C05 (example: ex_mask) *)
Theorem C05_mask_removes_exactly_the_positions : forall q ps,
  seq_wf q -> sincn ps -> (forall p, In p ps -> p < length (seq_iter q)) ->
  exists q', seq_mask q ps = Some q' /\ seq_wf q' /\ seq_iter q' = without_positions ps (seq_iter q).
Proof. exact seq_mask_spec. Qed.
Print Assumptions C05_mask_removes_exactly_the_positions.

Theorem C05_mask_unsorted_positions_refuted :
  exists q ps q', seq_wf q /\ NoDup ps /\ (forall p, In p ps -> p < length (seq_iter q)) /\
    seq_mask q ps = Some q' /\
    exists p v, In p ps /\ nth_error (seq_iter q) p = Some v /\ In v (seq_iter q').
Proof. exact seq_mask_unsorted_wrong. Qed.
Print Assumptions C05_mask_unsorted_positions_refuted.

(* C06: missing: segments with holes and with bitmaps, for which it is false *)
Theorem C06_segment_slice_partial : forall s off len,
  seg_wf s -> hole_free s -> off + len <= length (seg_iter s) ->
  exists s', seg_slice s off len = Some s' /\ (0 < len -> seg_wf s') /\
             seg_iter s' = firstn len (skipn off (seg_iter s)).
Proof. exact seg_slice_spec. Qed.
Print Assumptions C06_segment_slice_partial.

Theorem C06_slice_with_holes_refuted :
  exists s off len s', seg_wf s /\ off + len <= length (seg_iter s) /\
    seg_slice s off len = Some s' /\ seg_iter s' <> firstn len (skipn off (seg_iter s)).
Proof. exact seg_slice_holes_wrong. Qed.
Print Assumptions C06_slice_with_holes_refuted.

Theorem C06_slice_with_bitmap_refuted :
  exists s off len s', seg_wf s /\ (exists a b bm, s = BMap a b bm) /\ off + len <= length (seg_iter s) /\
    seg_slice s off len = Some s' /\ seg_iter s' <> firstn len (skipn off (seg_iter s)).
Proof. exact seg_slice_bitmap_wrong. Qed.
Print Assumptions C06_slice_with_bitmap_refuted.

(* C07 (example: ex_slice) *)
Theorem C07_extend_is_concatenation : forall q1 q2, seq_wf q1 -> seq_wf q2 ->
  seq_wf (seq_extend q1 q2) /\ seq_iter (seq_extend q1 q2) = seq_iter q1 ++ seq_iter q2.
Proof. exact seq_extend_spec. Qed.
Print Assumptions C07_extend_is_concatenation.

Theorem C07_get_is_nth : forall q i, seq_wf q -> seq_get q i = nth_error (seq_iter q) i.
Proof. exact seq_get_spec. Qed.
Print Assumptions C07_get_is_nth.

Theorem C07_slice_is_sublist : forall q off len, seq_wf q -> off + len <= length (seq_iter q) ->
  exists sl, seq_slice q off len = Some sl /\ slice_iter sl = firstn len (skipn off (seq_iter q)).
Proof. exact seq_slice_spec. Qed.
Print Assumptions C07_slice_is_sublist.

(* C08 (example: ex_rechunk); missing: sequences with holes or empty segments,
   for which it is false *)
Theorem C08_rechunk_conserves_ids_partial : forall qs sizes, Forall (Forall plain_seg) qs ->
  if Nat.eqb (sumn sizes) (length (concat (map seq_iter qs)))
  then exists cs, rechunk_sequences qs sizes = RcOk cs /\ Forall seq_wf cs /\
         concat (map seq_iter cs) = concat (map seq_iter qs) /\
         map (fun c => length (seq_iter c)) cs = sizes
  else rechunk_sequences qs sizes = RcErr.
Proof. exact rechunk_plain. Qed.
Print Assumptions C08_rechunk_conserves_ids_partial.

Theorem C08_rechunk_with_holes_refuted :
  exists qs sizes cs, Forall seq_wf qs /\ sumn sizes = length (concat (map seq_iter qs)) /\
    rechunk_sequences qs sizes = RcOk cs /\ concat (map seq_iter cs) <> concat (map seq_iter qs).
Proof. exact rechunk_holes_wrong. Qed.
Print Assumptions C08_rechunk_with_holes_refuted.

Theorem C08_rechunk_empty_segment_refuted :
  (exists qs sizes, Forall seq_wf qs /\ sumn sizes = length (concat (map seq_iter qs)) /\
     rechunk_sequences qs sizes = RcErr) /\
  (exists qs sizes cs, Forall seq_wf qs /\ sumn sizes <> length (concat (map seq_iter qs)) /\
     rechunk_sequences qs sizes = RcOk cs).
Proof. exact rechunk_empty_segment_wrong. Qed.
Print Assumptions C08_rechunk_empty_segment_refuted.
