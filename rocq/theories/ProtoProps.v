(* Commit handlers: one winner per version, crash safety of external stores, lost answers, adoption (C29, C31, C32, C75). *)
From Coq Require Import List Arith NArith ZArith Bool Permutation Sorted.
From Verif Require Import Lib NamingModel ProtoModel ProtoSpec ProtoProofs ProtoExtProofs ProtoExamples ProtoResults.
Import ListNotations.
Local Open Scope N_scope.

(* with a store whose rename refuses to overwrite *)
Theorem C29_rename : forall A S0, one_winner (rename_lts A (fun s => s = S0)) /\ immutable (rename_lts A (fun s => s = S0)) /\ reads_begun (rename_lts A (fun s => s = S0)).
Proof. exact @rename_claims. Qed.
Print Assumptions C29_rename.

(* with a lock that is exclusive until its holder releases it or crashes *)
Theorem C29_lock : forall A S0, one_winner (lock_lts A (fun s => s = S0) false) /\ immutable (lock_lts A (fun s => s = S0) false) /\ reads_begun (lock_lts A (fun s => s = S0) false).
Proof. exact @lock_claims. Qed.
Print Assumptions C29_lock.

(* with an external store whose errors mean that nothing was written *)
Theorem C29_external : forall A, one_winner (ext_lts A false) /\ immutable (ext_lts A false) /\ reads_begun (ext_lts A false).
Proof. exact @ext_claims. Qed.
Print Assumptions C29_external.

(* each handler refines one atomic commit-if-absent register *)
Theorem C29_rename_refines : forall A S0, simulates (rename_lts A (fun s => s = S0)) (abs_lts A) (sim_r S0).
Proof. exact @rename_simulates. Qed.
Print Assumptions C29_rename_refines.

Theorem C29_lock_refines : forall A S0, simulates (lock_lts A (fun s => s = S0) false) (abs_lts A) (sim_k S0).
Proof. exact @lock_simulates. Qed.
Print Assumptions C29_lock_refines.

Theorem C29_external_refines : forall A, simulates (ext_lts A false) (abs_lts A) sim_e.
Proof. exact @ext_simulates. Qed.
Print Assumptions C29_external_refines.

(* a commit reported as successful is there for every later reader *)
Theorem C29_rename_kept : forall A S0 s0 tr s a v x, linit (rename_lts A (fun s => s = S0)) s0 -> run (rename_lts A (fun s => s = S0)) s0 tr s ->
  In (LBegin a v x) tr -> In (LRet a ROk) tr -> r_obj s (PFinal S0 v) = Some x.
Proof. exact @rename_won. Qed.
Print Assumptions C29_rename_kept.

Theorem C29_lock_kept : forall A S0 s0 tr s a v x, linit (lock_lts A (fun s => s = S0) false) s0 -> run (lock_lts A (fun s => s = S0) false) s0 tr s ->
  In (LBegin a v x) tr -> In (LRet a ROk) tr -> k_obj s (PFinal S0 v) = Some x.
Proof. exact @lock_won. Qed.
Print Assumptions C29_lock_kept.

Theorem C29_external_kept : forall A s0 tr s a v x, linit (ext_lts A false) s0 -> run (ext_lts A false) s0 tr s ->
  In (LBegin a v x) tr -> In (LRet a ROk) tr -> recorded s v x.
Proof. exact @ext_won. Qed.
Print Assumptions C29_external_kept.

(* the unsafe handler has two winners *)
Theorem C29_unsafe_refuted : ~ one_winner (unsafe_lts N).
Proof. exact @unsafe_refuted. Qed.
Print Assumptions C29_unsafe_refuted.

(* so has renaming when two writers name manifests differently *)
Theorem C29_mixed_schemes_refuted : ~ one_winner (rename_lts N (fun _ => True)).
Proof. exact @mixed_schemes_refuted. Qed.
Print Assumptions C29_mixed_schemes_refuted.

(* and a lock that times out under a live holder *)
Theorem C29_lock_timeout_refuted : ~ one_winner (lock_lts N (fun s => s = V2) true).
Proof. exact @lock_timeout_refuted. Qed.
Print Assumptions C29_lock_timeout_refuted.

(* every recorded version has its contents, whatever crashed *)
Theorem C31_recorded_readable : forall A (s : est A) v, reachable (ext_lts A false) s -> e_ext s v <> None -> exists x, recorded s v x.
Proof. exact @recorded_readable. Qed.
Print Assumptions C31_recorded_readable.

(* a reader that resolved a version finds those contents *)
Theorem C31_resolved_readable : forall A (s : est A) a v p, reachable (ext_lts A false) s -> e_pc s a = ERead v p -> exists x, e_obj s p = Some x /\ exists sc, p = PFinal sc v /\
  (forall x', recorded s v x' -> x' = x).
Proof. exact @resolved_readable. Qed.
Print Assumptions C31_resolved_readable.

(* recorded contents stay under any further steps and crashes *)
Theorem C31_recorded_forever : forall A (s : est A) tr s' v x, reachable (ext_lts A false) s -> run (ext_lts A false) s tr s' -> recorded s v x -> recorded s' v x.
Proof. exact @recorded_forever. Qed.
Print Assumptions C31_recorded_forever.

(* and every later read returns them *)
Theorem C31_recorded_read : forall A (s : est A) tr s' v x y, reachable (ext_lts A false) s -> recorded s v x -> run (ext_lts A false) s tr s' -> In (LRead v y) tr -> y = x.
Proof. exact @recorded_read. Qed.
Print Assumptions C31_recorded_read.

(* the latest version reported never goes backwards *)
Theorem C31_latest_forward : forall A (s : est A) v w tr s' s1 s2, reachable (ext_lts A false) s ->
  lstep (ext_lts A false) s (Some (LLatest v)) s1 -> run (ext_lts A false) s1 tr s' -> lstep (ext_lts A false) s' (Some (LLatest w)) s2 -> v <= w.
Proof. exact @latest_forward. Qed.
Print Assumptions C31_latest_forward.

(* the store applied the write and reported an error: the conflict is reported and the version is destroyed *)
Theorem C32_lost_answer_refuted : exists s v, run (ext_lts N true) ext0 [LBegin 1 v 10; LRet 1 RConflict] s /\ linit (ext_lts N true) ext0 /\
  e_ext s v <> None /\ (forall x, ~ recorded s v x) /\ (forall sc, e_obj s (PFinal sc v) = None).
Proof. exact @lost_answer_refuted. Qed.
Print Assumptions C32_lost_answer_refuted.

(* it stays recorded and no reader can ever open it *)
Theorem C32_lost_answer_permanent_refuted : exists s v, linit (ext_lts N true) ext0 /\ run (ext_lts N true) ext0 [LBegin 1 v 10; LRet 1 RConflict] s /\ e_ext s v <> None /\
  (forall lossy tr s', run (ext_lts N lossy) s tr s' -> e_ext s' v <> None /\ forall x, ~ In (LRead v x) tr).
Proof. exact @lost_answer_permanent. Qed.
Print Assumptions C32_lost_answer_permanent_refuted.

(* with a store whose errors mean that nothing was written, nothing recorded is damaged *)
Theorem C32_conflict_harmless_partial : forall A (s : est A) tr s' v x, reachable (ext_lts A false) s -> run (ext_lts A false) s tr s' -> recorded s v x -> recorded s' v x.
Proof. exact @recorded_forever. Qed.
Print Assumptions C32_conflict_harmless_partial.

(* reading version 3 by number makes 3 the latest of five versions and the next commit overwrites version 4 *)
Theorem C75_adoption_refuted : exists s, run (ext_lts N false) adopted [LLatest 5; LRead 3 30; LLatest 3; LBegin 2 4 99; LRet 2 ROk; LLatest 4; LRead 4 99] s /\
  e_obj adopted (PFinal V2 4) = Some 40 /\ e_obj s (PFinal V2 4) = Some 99.
Proof. exact @adoption_refuted. Qed.
Print Assumptions C75_adoption_refuted.

(* tables that used the external store from their first version keep every version *)
Theorem C75_empty_adoption_partial : forall A (s : est A) tr s' v x, reachable (ext_lts A false) s -> run (ext_lts A false) s tr s' -> recorded s v x -> recorded s' v x.
Proof. exact @recorded_forever. Qed.
Print Assumptions C75_empty_adoption_partial.
