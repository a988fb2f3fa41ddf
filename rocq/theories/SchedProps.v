(* Properties of the I/O scheduler (C54, C55). *)
From Coq Require Import List Arith NArith ZArith Bool Permutation Sorted.
From Verif Require Import Lib SchedModel SchedProofs SchedQueue.
Import ListNotations.
Local Open Scope nat_scope.

(* full claim: also with empty ranges among the request *)
Theorem C54_exact_partial : forall {B} (file : list B) bs request, by_start request ->
  Forall (fun r => fst r < snd r /\ snd r <= length file) request ->
  submit_request file bs request = Done (map (bytes_of file) request).
Proof. exact @submit_request_exact. Qed.
Print Assumptions C54_exact_partial.

Theorem C54_prefix : forall {B} (file : list B) bs request, by_start request ->
  Forall (fun r => fst r <= snd r /\ snd r <= length file) request ->
  exists p q, request = p ++ q /\ submit_request file bs request = Done (map (bytes_of file) p) /\ stops q.
Proof. exact @submit_request_prefix. Qed.
Print Assumptions C54_prefix.

Theorem C54_single : forall {B} (file : list B) bs r, fst r < snd r -> snd r <= length file -> submit_single file bs r = Done (bytes_of file r).
Proof. exact @single_exact. Qed.
Print Assumptions C54_single.

Theorem C54_reads_apart : forall bs request, Forall (fun r => fst r <= snd r) request -> by_start request ->
  StronglySorted (fun a b => snd a + bs < fst b) (updated_requests bs request) /\
  Forall (fun r => exists g, In g (updated_requests bs request) /\ fst g <= fst r /\ snd r <= snd g) request.
Proof. exact @coalesced_apart. Qed.
Print Assumptions C54_reads_apart.

Theorem C54_empty_range_refuted : exists (file : list nat) bs request, by_start request /\ Forall (fun r => fst r <= snd r /\ snd r <= length file) request /\
  length request = 2 /\ submit_request file bs request = Done [].
Proof. exact @empty_range_refuted. Qed.
Print Assumptions C54_empty_range_refuted.

Theorem C54_single_empty_panics : forall {B} (file : list B) bs a, submit_single file bs (a, a) = Panic.
Proof. exact @single_empty_panics. Qed.
Print Assumptions C54_single_empty_panics.

Theorem C54_unsorted_refuted : exists (file : list nat) bs request, Forall (fun r => fst r < snd r /\ snd r <= length file) request /\ submit_request file bs request = Panic.
Proof. exact @unsorted_refuted. Qed.
Print Assumptions C54_unsorted_refuted.

Theorem C54_unsorted_lost_refuted : exists (file : list nat) bs request, Forall (fun r => fst r < snd r /\ snd r <= length file) request /\
  length request = 2 /\ submit_request file bs request = Done [[12; 13]].
Proof. exact @unsorted_lost_refuted. Qed.
Print Assumptions C54_unsorted_lost_refuted.

Theorem C55_accounting : forall cap budget s, reachable cap budget s ->
  iops s + length (run s) = cap /\
  (bytes s + Z.of_nat (sum_bytes (issued s)) = Z.of_nat budget)%Z /\
  StronglySorted le (inflight s) /\ Permutation (inflight s) (map t_prio (issued s)).
Proof. exact @accounting. Qed.
Print Assumptions C55_accounting.

Theorem C55_admission : forall cap budget s t s', reachable cap budget s -> step s s' -> run s' = t :: run s ->
  (forall u, In u (pend s) -> t_prio t <= t_prio u) /\ In t (pend s) /\ 0 < iops s /\
  ((forall u, In u (issued s) -> t_prio t <= t_prio u) \/ (0 <= bytes s')%Z).
Proof. exact @admission. Qed.
Print Assumptions C55_admission.

Theorem C55_urgent_admitted : forall cap budget s t, reachable cap budget s -> 0 < iops s ->
  (forall u, In u (issued s) -> t_prio t <= t_prio u) -> can_deliver s t = true.
Proof. exact @urgent_admitted. Qed.
Print Assumptions C55_urgent_admitted.

Theorem C55_no_panic : forall cap budget s, reachable cap budget s -> ~ panics s.
Proof. exact @no_panic. Qed.
Print Assumptions C55_no_panic.

Theorem C55_response_complete : forall cap budget s b, reachable cap budget s -> In b (batches s) -> ready b ->
  Permutation (b_tasks b) (of (b_id b) (fin s)) /\ b_bytes b = sum_bytes (b_tasks b).
Proof. exact @response_complete. Qed.
Print Assumptions C55_response_complete.

Theorem C55_drained_full : forall cap budget s, reachable cap budget s -> batches s = [] ->
  iops s = cap /\ bytes s = Z.of_nat budget /\ inflight s = [] /\ pend s = [].
Proof. exact @drained_full. Qed.
Print Assumptions C55_drained_full.

Theorem C55_blocked_on_caller : forall cap budget s t, 0 < cap -> inv cap budget s -> run s = [] -> deliv s = [] -> (forall b, In b (batches s) -> b_unpushed b = []) ->
  peek (pend s) t -> can_deliver s t = false ->
  exists b, In b (batches s) /\ ready b /\ (forall u, In u (issued s) -> b_prio b <= t_prio u) /\ b_prio b < t_prio t.
Proof. exact @blocked_on_caller. Qed.
Print Assumptions C55_blocked_on_caller.

Theorem C55_no_deadlock : forall cap budget s, 0 < cap -> reachable cap budget s -> kept s -> exists s', steps s s' /\ batches s' = [] /\ iops s' = cap /\ bytes s' = Z.of_nat budget.
Proof. exact @no_deadlock. Qed.
Print Assumptions C55_no_deadlock.

(* outside the claim: a caller that drops its future *)
Theorem C55_abandoned_starves_refuted : exists s, reachable 2 10 s /\ run s = [] /\ deliv s = [] /\ iops s = 2 /\
  (exists b, In b (batches s) /\ b_gone b = false /\ b_tasks b = pend s /\ pend s <> [] /\ sum_bytes (pend s) <= 10) /\
  forall s', quiet s s' -> pend s' = pend s.
Proof. exact @abandoned_starves_refuted. Qed.
Print Assumptions C55_abandoned_starves_refuted.
