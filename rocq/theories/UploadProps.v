(* C119, C120: the writer of files to the object store. *)
From Coq Require Import List Arith NArith ZArith Bool Permutation Sorted.
From Verif Require Import Lib UploadModel UploadProofs UploadExamples.
Import ListNotations.
Local Open Scope nat_scope.

(* the object is the bytes accepted, in order, for every interleaving, if at least one upload may run and either the store checks the parts or no connection was reset.  Missing from C119: the two cases refuted below *)
Theorem C119_object_is_bytes_partial : forall {B} cfg calls acc (w : writer B) polls w', 1 <= parallelism cfg -> strict cfg = true \/ w_resets w' = 0 ->
  writes cfg calls (new cfg) [] = Some (acc, w) -> shutdowns cfg polls w = Some (true, w') ->
  w_object w' = Some acc /\ tell w' = length acc.
Proof. exact @written_exact. Qed.
Print Assumptions C119_object_is_bytes_partial.

(* the position is the number of bytes accepted, at any time *)
Theorem C119_tell_exact : forall {B} cfg calls acc (w : writer B), writes cfg calls (new cfg) [] = Some (acc, w) -> tell w = length acc.
Proof. exact @tell_exact. Qed.
Print Assumptions C119_tell_exact.

(* a write that is ready has accepted a non-empty front of its buffer *)
Theorem C119_write_front : forall {B} cfg calls acc (w : writer B) ev buf n w', writes cfg calls (new cfg) [] = Some (acc, w) ->
  poll_write cfg ev w buf = (Ready n, w') -> 0 < n /\ n <= length buf.
Proof. exact @write_front. Qed.
Print Assumptions C119_write_front.

(* all parts but the last have at least the initial size, and exactly that in constant mode *)
Theorem C119_part_sizes : forall {B} cfg calls acc (w : writer B) polls b w', 1 <= parallelism cfg ->
  writes cfg calls (new cfg) [] = Some (acc, w) -> shutdowns cfg polls w = Some (b, w') -> existsb lost (parts_of w') = false ->
  forall i p, nth_error (parts_of w') i = Some p -> S i < length (parts_of w') ->
  initial cfg <= length (p_data p) /\ (constant cfg = true -> length (p_data p) = initial cfg).
Proof. exact @part_sizes. Qed.
Print Assumptions C119_part_sizes.

Theorem C119_zero_concurrency_refuted :
  ~ (forall cfg (calls : list (call (B := nat))) acc w polls w', strict cfg = true ->
      writes cfg calls (new cfg) [] = Some (acc, w) -> shutdowns cfg polls w = Some (true, w') -> w_object w' = Some acc).
Proof. exact @truncated_refuted. Qed.
Print Assumptions C119_zero_concurrency_refuted.

Theorem C119_retried_part_moves_refuted :
  ~ (forall cfg (calls : list (call (B := nat))) acc w polls w', 1 <= parallelism cfg ->
      writes cfg calls (new cfg) [] = Some (acc, w) -> shutdowns cfg polls w = Some (true, w') -> w_object w' = Some acc).
Proof. exact @retried_refuted. Qed.
Print Assumptions C119_retried_part_moves_refuted.

(* a pending shutdown is always woken.  Missing from C120: writes *)
Theorem C120_shutdown_wakes_partial : forall {B} cfg ev (w : writer B) b w', poll_shutdown cfg ev w = (Pending b, w') -> b = true.
Proof. exact @shutdown_pending_wakes. Qed.
Print Assumptions C120_shutdown_wakes_partial.

Theorem C120_flush_wakes_partial : forall {B} cfg ev (w : writer B) b w', poll_flush cfg ev w = (Pending b, w') -> b = true.
Proof. exact @flush_pending_wakes. Qed.
Print Assumptions C120_flush_wakes_partial.

(* the only writes that are pending with nothing to wake them: an empty buffer, or an upload with no task left *)
Theorem C120_write_pending_partial : forall {B} cfg calls acc (w : writer B) ev buf w', 1 <= initial cfg -> writes cfg calls (new cfg) [] = Some (acc, w) ->
  poll_write cfg ev w buf = (Pending false, w') -> buf = [] \/ exists idx parts, w_state w' = InProgress idx parts /\ futures parts = 0.
Proof. exact @write_pending. Qed.
Print Assumptions C120_write_pending_partial.

(* without resets, shutdown finishes if the uploads succeed *)
Theorem C120_can_finish : forall {B} cfg calls acc (w : writer B), 1 <= parallelism cfg -> writes cfg calls (new cfg) [] = Some (acc, w) -> w_resets w = 0 ->
  exists ev w', poll_shutdown cfg ev w = (Ready tt, w').
Proof. exact @can_finish. Qed.
Print Assumptions C120_can_finish.

(* with a store that checks the parts, a file with a retried reset is never finished *)
Theorem C120_reset_never_finishes : forall {B} cfg calls acc (w : writer B) polls w', 1 <= parallelism cfg -> strict cfg = true ->
  writes cfg calls (new cfg) [] = Some (acc, w) -> shutdowns cfg polls w = Some (true, w') -> w_resets w' = 0.
Proof. exact @reset_fails. Qed.
Print Assumptions C120_reset_never_finishes.

Theorem C120_lost_wakeup_refuted :
  ~ (forall cfg (calls : list (call (B := nat))) acc w ev buf b w', 1 <= parallelism cfg -> 1 <= initial cfg ->
      writes cfg calls (new cfg) [] = Some (acc, w) -> poll_write cfg ev w buf = (Pending b, w') -> buf <> [] -> b = true).
Proof. exact @lost_wakeup_refuted. Qed.
Print Assumptions C120_lost_wakeup_refuted.

Theorem C120_retry_useless_refuted :
  exists calls acc w w', writes small (calls : list (call (B := nat))) (new small) [] = Some (acc, w) /\ w_resets w = 1 /\ w_resets w <= max_resets small /\
    poll_flush small [] w = (Ready tt, w') /\ fst (poll_shutdown small [Ok 0] w') = Fail.
Proof. exact @retry_useless_refuted. Qed.
Print Assumptions C120_retry_useless_refuted.
