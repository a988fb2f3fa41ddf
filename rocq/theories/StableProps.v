(* C121: compaction of datasets with stable row ids. *)
From Coq Require Import List Arith NArith ZArith Bool Permutation Sorted.
From Verif Require Import Lib RowIdsModel RowIdsSpec EncArrProofs BitmapProofs SegProofs SeqProofs RechunkProofs StableModel StableProofs StableGap StableExamples.
Import ListNotations.
Local Open Scope nat_scope.

(* whatever the order of loading and the sizes of the new fragments, if masking the deletions leaves no segments with holes.  Missing from C121: those, for which it is false *)
Theorem C121_compaction_keeps_ids_partial : forall {V} (frags : list (ofrag V)) loaded chunks,
  NoDup (map (fun f => id32 (o_id f)) frags) -> Permutation loaded (loaded_pairs frags) ->
  Forall frag_ok frags -> Forall masks_plain frags ->
  concat chunks = concat (map (fun f => live (deleted f) (o_rows f)) frags) ->
  exists seqs, rechunk_stable loaded frags (map (@length V) chunks) = Some (RcOk seqs) /\ Forall seq_wf seqs /\
    map (fun q => length (seq_iter q)) seqs = map (@length V) chunks /\
    concat (map (fun p => combine (seq_iter (fst p)) (snd p)) (combine seqs chunks)) = concat (map live_rows frags).
Proof. exact @compaction_keeps_ids. Qed.
Print Assumptions C121_compaction_keeps_ids_partial.

(* masking leaves no holes when the ids that are left are contiguous *)
Theorem C121_contiguous_partial : forall s ps x y, seg_wf s -> hole_free s -> sincn ps -> (forall p, In p ps -> p < length (seg_iter s)) ->
  wpos 0 ps (seg_iter s) = range_list x y -> forall q, seq_mask [s] ps = Some q -> Forall plain_seg q.
Proof. exact @contiguous_plain. Qed.
Print Assumptions C121_contiguous_partial.

(* or when the ids are an array (any deletions) *)
Theorem C121_array_partial : forall arr ps, seg_wf (Arr arr) -> sincn ps -> (forall p, In p ps -> p < length (ea_iter arr)) ->
  forall q, seq_mask [Arr arr] ps = Some q -> Forall plain_seg q.
Proof. exact @array_plain. Qed.
Print Assumptions C121_array_partial.

(* for a fragment of consecutive ids with a gap left by deletions of less than a third of the ids, no compaction keeps the ids *)
Theorem C121_gap_loses_ids : forall {V} (f : ofrag V) a b ps sizes seqs lo hi, o_seq f = [Range a b] -> o_del f = Some ps -> frag_ok f ->
  let l := map fst (live_rows f) in
  In lo l -> In hi l -> (forall v, In v l -> lo <= v <= hi)%N -> length l < N.to_nat (hi - lo + 1) -> 2 * (N.to_nat (hi - lo + 1) - length l) <= length l ->
  rechunk_stable (loaded_pairs [f]) [f] sizes = Some (RcOk seqs) -> concat (map seq_iter seqs) <> l.
Proof. exact @gap_loses_ids. Qed.
Print Assumptions C121_gap_loses_ids.

Theorem C121_compaction_refuted :
  ~ (forall V (frags : list (ofrag V)) loaded chunks seqs,
      NoDup (map (fun f => id32 (o_id f)) frags) -> Permutation loaded (loaded_pairs frags) -> Forall frag_ok frags ->
      concat chunks = concat (map (fun f => live (deleted f) (o_rows f)) frags) ->
      rechunk_stable loaded frags (map (@length V) chunks) = Some (RcOk seqs) ->
      concat (map (fun p => combine (seq_iter (fst p)) (snd p)) (combine seqs chunks)) = concat (map live_rows frags)).
Proof. exact @compaction_refuted. Qed.
Print Assumptions C121_compaction_refuted.
