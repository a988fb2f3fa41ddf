(* The commit loop: contiguous immutable versions, conflict checks, removed versions (C30, C34, C35, C76). *)
From Coq Require Import List Arith NArith ZArith Bool Permutation Sorted.
From Verif Require Import Lib AMap TxnModel TxnSpec NamingModel ProtoModel ProtoSpec ProtoProofs ProtoExtProofs ProtoResults LoopModel LoopProofs LoopExamples.
Import ListNotations.
Local Open Scope N_scope.

(* the existing versions are 1..n, under each handler *)
Theorem C30_rename_contiguous : forall skip seen S0 s, reachable (loop_lts skip seen (rename_lts entry (fun x => x = S0))) s ->
  exists n, forall v, r_obj (fst s) (PFinal S0 v) <> None <-> 1 <= v <= n.
Proof. exact @rename_contiguous. Qed.
Print Assumptions C30_rename_contiguous.

Theorem C30_lock_contiguous : forall skip seen S0 s, reachable (loop_lts skip seen (lock_lts entry (fun x => x = S0) false)) s ->
  exists n, forall v, k_obj (fst s) (PFinal S0 v) <> None <-> 1 <= v <= n.
Proof. exact @lock_contiguous. Qed.
Print Assumptions C30_lock_contiguous.

Theorem C30_external_contiguous : forall skip seen s, reachable (loop_lts skip seen (ext_lts entry false)) s ->
  exists n, forall v, (exists x, recorded (fst s) v x) <-> 1 <= v <= n.
Proof. exact @ext_contiguous. Qed.
Print Assumptions C30_external_contiguous.

(* and never change *)
Theorem C30_immutable : forall skip seen S0,
  immutable (loop_lts skip seen (rename_lts entry (fun x => x = S0))) /\ immutable (loop_lts skip seen (lock_lts entry (fun x => x = S0) false)) /\ immutable (loop_lts skip seen (ext_lts entry false)).
Proof. exact @loop_immutable. Qed.
Print Assumptions C30_immutable.

(* every version was checked against all since the one it was prepared from and built on its predecessor *)
Theorem C34_rename_checked : forall skip seen S0 s, reachable (loop_lts skip seen (rename_lts entry (fun x => x = S0))) s ->
  forall v e, r_obj (fst s) (PFinal S0 v) = Some e -> checked_version seen (fun u => r_obj (fst s) (PFinal S0 u)) v e.
Proof. exact @rename_checked. Qed.
Print Assumptions C34_rename_checked.

Theorem C34_lock_checked : forall skip seen S0 s, reachable (loop_lts skip seen (lock_lts entry (fun x => x = S0) false)) s ->
  forall v e, k_obj (fst s) (PFinal S0 v) = Some e -> checked_version seen (fun u => k_obj (fst s) (PFinal S0 u)) v e.
Proof. exact @lock_checked. Qed.
Print Assumptions C34_lock_checked.

Theorem C34_external_checked : forall skip seen s, reachable (loop_lts skip seen (ext_lts entry false)) s ->
  forall v e, content (fst s) v = Some e -> checked_version seen (content (fst s)) v e.
Proof. exact @ext_checked. Qed.
Print Assumptions C34_external_checked.

(* the table is a checked history, and a writer told of success has its transaction in it *)
Theorem C34_rename_history : forall skip seen S0 s, reachable (loop_lts skip seen (rename_lts entry (fun x => x = S0))) s ->
  exists h, checked_history seen h /\ (forall v, r_obj (fst s) (PFinal S0 v) = version_entry h v) /\
    (forall i t v, snd s i = WDone t v -> exists e, version_entry h v = Some e /\ e_txn e = t).
Proof. exact @rename_history. Qed.
Print Assumptions C34_rename_history.

Theorem C34_lock_history : forall skip seen S0 s, reachable (loop_lts skip seen (lock_lts entry (fun x => x = S0) false)) s ->
  exists h, checked_history seen h /\ (forall v, k_obj (fst s) (PFinal S0 v) = version_entry h v) /\
    (forall i t v, snd s i = WDone t v -> exists e, version_entry h v = Some e /\ e_txn e = t).
Proof. exact @lock_history. Qed.
Print Assumptions C34_lock_history.

Theorem C34_external_history : forall skip seen s, reachable (loop_lts skip seen (ext_lts entry false)) s ->
  exists h, checked_history seen h /\ (forall v x, recorded (fst s) v x <-> version_entry h v = Some x) /\
    (forall i t v, snd s i = WDone t v -> exists e, version_entry h v = Some e /\ e_txn e = t).
Proof. exact @ext_history. Qed.
Print Assumptions C34_external_history.

(* with transaction files that read back faithfully these are the histories of C36-C44 *)
Theorem C34_faithful : forall seen, (forall a b, conflicts_with (t_op a) (t_op (seen b)) = conflicts_with (t_op a) (t_op b)) ->
  forall h, checked_history seen h -> history h.
Proof. exact @checked_history_faithful. Qed.
Print Assumptions C34_faithful.

(* the loop over a handler refines the loop over the atomic register *)
Theorem C34_refinement : forall skip seen (H G : lts (label entry)) R, simulates H G R ->
  simulates (loop_lts skip seen H) (loop_lts skip seen G) (fun p q => R (fst p) (fst q) /\ snd p = snd q).
Proof. exact @loop_simulates. Qed.
Print Assumptions C34_refinement.

(* a removed version ends the first check early and a conflicting commit goes through *)
Theorem C35_skipped_check_refuted : ~ remaining_claim true true.
Proof. exact @skipped_check_refuted. Qed.
Print Assumptions C35_skipped_check_refuted.

(* the claim when no first check meets a removed version and removed numbers stay taken *)
Theorem C35_remaining_checked_partial : forall seen s, reachable (loop_lts false seen (clean_lts true)) s ->
  forall i t v u y, snd s i = WDone t v -> t_read t < u < v -> a_vers (c_reg (fst s)) u = Some y -> conflicts_with (t_op t) (t_op (seen (e_txn y))) = false.
Proof. exact @remaining_checked. Qed.
Print Assumptions C35_remaining_checked_partial.

(* a slow writer commits different contents under the number of a removed version *)
Theorem C76_reused_number_refuted : ~ immutable (loop_lts true (fun t => t) (clean_lts false)).
Proof. exact @reused_number_refuted. Qed.
Print Assumptions C76_reused_number_refuted.

(* the claim for stores that keep the numbers of removed versions taken *)
Theorem C76_kept_numbers_partial : forall skip seen, immutable (loop_lts skip seen (clean_lts true)).
Proof. exact @kept_numbers_immutable. Qed.
Print Assumptions C76_kept_numbers_partial.
