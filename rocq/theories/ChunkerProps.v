(* Properties of stream re-batching (C56). *)
From Coq Require Import List Arith NArith ZArith Bool Permutation Sorted.
From Verif Require Import Lib ChunkerModel ChunkerProofs.
Import ListNotations.
Local Open Scope nat_scope.

Theorem C56_chunk_stream : forall {A} n fuel (s : list (item (list A))), 0 < n -> length (total s) + length s < fuel ->
  exists out, chunk_stream fuel n s = Some out /\ concat (concat (oks out)) = total s /\ errs out = errs s /\
    exact_sizes n (map (@concat A) (oks out)) /\ Forall (Forall (fun p => p <> [])) (oks out).
Proof. exact @chunk_stream_spec. Qed.
Print Assumptions C56_chunk_stream.

Theorem C56_chunk_concat : forall {A} n fuel (s : list (item (list A))), 0 < n -> length (total s) + length s < fuel ->
  exists out, chunk_concat_stream fuel n s = Some out /\ concat (oks out) = total s /\ errs out = errs s /\ exact_sizes n (oks out).
Proof. exact @chunk_concat_spec. Qed.
Print Assumptions C56_chunk_concat.

Theorem C56_break_stream : forall {A} n (s : list (item (list A))), 0 < n ->
  exists out, break_stream n s = Some out /\ total out = total s /\ errs out = errs s /\ Forall (fun p => p <> []) (oks out) /\
    (* pieces end exactly where an input batch ends or n rows have passed *)
    (forall e, In e (ends 0 (oks out)) <-> (0 < e <= length (total s) /\ (In e (ends 0 (oks s)) \/ e mod n = 0))) /\
    (forall l1 p l2, oks out = l1 ++ p :: l2 -> exists q, q * n <= length (concat l1) /\ length (concat l1) + length p <= (q + 1) * n).
Proof. exact @break_stream_spec. Qed.
Print Assumptions C56_break_stream.

(* n = 0 is outside the claim: it ends the stream at once *)
Theorem C56_zero_size : forall {A} (s : list (item (list A))) fuel, chunk_stream (S fuel) 0 s = Some [].
Proof. exact @chunk_zero. Qed.
Print Assumptions C56_zero_size.
