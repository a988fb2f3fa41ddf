(* C29-C32: the claims for each commit handler. *)
From Coq Require Import List NArith Bool Lia.
From Verif Require Import Lib NamingModel ProtoModel ProtoSpec ProtoProofs ProtoExtProofs ProtoExamples.
Import ListNotations.
Local Open Scope N_scope.

(* C29, C30: under a store whose rename refuses to overwrite *)
Theorem rename_claims : forall A S0, one_winner (rename_lts A (fun s => s = S0)) /\ immutable (rename_lts A (fun s => s = S0)) /\ reads_begun (rename_lts A (fun s => s = S0)).
Proof. intros A S0. destruct (simulates_traces _ _ _ (rename_simulates A S0)) as [T1 [T2 T3]]. destruct (abs_one_winner A) as [O1 [O2 O3]]. auto. Qed.
(* under a lock that excludes others until its holder releases it or crashes *)
Theorem lock_claims : forall A S0, one_winner (lock_lts A (fun s => s = S0) false) /\ immutable (lock_lts A (fun s => s = S0) false) /\ reads_begun (lock_lts A (fun s => s = S0) false).
Proof. intros A S0. destruct (simulates_traces _ _ _ (lock_simulates A S0)) as [T1 [T2 T3]]. destruct (abs_one_winner A) as [O1 [O2 O3]]. auto. Qed.
(* under an external store whose errors mean that nothing was written *)
Theorem ext_claims : forall A, one_winner (ext_lts A false) /\ immutable (ext_lts A false) /\ reads_begun (ext_lts A false).
Proof. intros A. destruct (simulates_traces _ _ _ (ext_simulates A)) as [T1 [T2 T3]]. destruct (abs_one_winner A) as [O1 [O2 O3]]. auto. Qed.

(* a commit reported as successful is there, and stays *)
Lemma abs_won : forall A s0 tr s a v x, linit (abs_lts A) s0 -> run (abs_lts A) s0 tr s -> In (LBegin a v x) tr -> In (LRet a ROk) tr -> a_vers s v = Some x.
Proof.
  intros A s0 tr s a v x I X B R. destruct (abs_invariant s0 tr s I X) as [W [[C1 [C2 [C3 [C4 [C5 [C6 C7]]]]]] CW]].
  destruct (C6 a R) as [v' [x' [B' W']]]. destruct (C3 _ _ _ _ _ B B') as [<- <-]. destruct (a_vers s v) as [y|] eqn:E; [|rewrite (CW v E) in W'; discriminate].
  destruct (C4 v y E) as [b [Wb Bb]]. assert (b = a) by congruence. subst b. destruct (C3 _ _ _ _ _ B Bb) as [_ <-]. reflexivity.
Qed.
Theorem rename_won : forall A S0 s0 tr s a v x, linit (rename_lts A (fun s => s = S0)) s0 -> run (rename_lts A (fun s => s = S0)) s0 tr s ->
  In (LBegin a v x) tr -> In (LRet a ROk) tr -> r_obj s (PFinal S0 v) = Some x.
Proof.
  intros A S0 s0 tr s a v x I X B R. pose proof (rename_simulates A S0) as SIM. destruct (proj1 SIM s0 I) as [t0 [I0 R0]].
  destruct (simulates_run _ _ _ SIM _ _ _ X t0 R0) as [t [Y [RV _]]]. rewrite <- RV. exact (abs_won A t0 tr t a v x I0 Y B R).
Qed.
Theorem lock_won : forall A S0 s0 tr s a v x, linit (lock_lts A (fun s => s = S0) false) s0 -> run (lock_lts A (fun s => s = S0) false) s0 tr s ->
  In (LBegin a v x) tr -> In (LRet a ROk) tr -> k_obj s (PFinal S0 v) = Some x.
Proof.
  intros A S0 s0 tr s a v x I X B R. pose proof (lock_simulates A S0) as SIM. destruct (proj1 SIM s0 I) as [t0 [I0 R0]].
  destruct (simulates_run _ _ _ SIM _ _ _ X t0 R0) as [t [Y [RV _]]]. rewrite <- RV. exact (abs_won A t0 tr t a v x I0 Y B R).
Qed.
Theorem ext_won : forall A s0 tr s a v x, linit (ext_lts A false) s0 -> run (ext_lts A false) s0 tr s ->
  In (LBegin a v x) tr -> In (LRet a ROk) tr -> recorded s v x.
Proof.
  intros A s0 tr s a v x I X B R. pose proof (ext_simulates A) as SIM. destruct (proj1 SIM s0 I) as [t0 [I0 R0]].
  destruct (simulates_run _ _ _ SIM _ _ _ X t0 R0) as [t [Y [W [[J1 [J2 _]] [I2 _]]]]]. pose proof (abs_won A t0 tr t a v x I0 Y B R) as V. rewrite I2 in V.
  destruct (W v) as [[[b sc] z]|] eqn:E; [|discriminate]. injection V as ->. destruct (J2 _ _ _ _ E) as [[K1 K2]|[K1 K2]]; eexists; split; try eassumption; split; auto.
Qed.

(* C31: whatever runs, and wherever it crashes, a recorded version keeps its contents *)
Theorem recorded_forever : forall A (s : est A) tr s' v x, reachable (ext_lts A false) s -> run (ext_lts A false) s tr s' -> recorded s v x -> recorded s' v x.
Proof.
  intros A s tr s' v x [s0 [tr0 [I0 X0]]] X RC. induction X as [s|s tr s1 s2 X IH ST|s tr s1 l s2 X IH ST]; [exact RC| |].
  - apply (recorded_stable A s1 None s2 v x); [|exact ST|exact (IH X0 RC)]. exists s0, (tr0 ++ tr). split; [exact I0|exact (run_app _ _ _ _ _ _ X0 X)].
  - apply (recorded_stable A s1 (Some l) s2 v x); [|exact ST|exact (IH X0 RC)]. exists s0, (tr0 ++ tr). split; [exact I0|exact (run_app _ _ _ _ _ _ X0 X)].
Qed.
(* and whoever resolves it later reads those contents *)
Theorem recorded_read : forall A (s : est A) tr s' v x y, reachable (ext_lts A false) s -> recorded s v x -> run (ext_lts A false) s tr s' -> In (LRead v y) tr -> y = x.
Proof.
  intros A s tr s' v x y [s0 [tr0 [I0 X0]]] RC X J. pose proof (ext_simulates A) as SIM. destruct (proj1 SIM s0 I0) as [t0 [T0 R0]].
  destruct (simulates_run _ _ _ SIM _ _ _ X0 t0 R0) as [t [Y [W G]]]. destruct (simulates_run _ _ _ SIM _ _ _ X t (ex_intro _ W G)) as [t' [Y' [W' G']]].
  assert (RC' : recorded s' v x) by (apply (recorded_forever A s tr s'); [exists s0, tr0; auto|exact X|exact RC]).
  destruct (abs_invariant t0 (tr0 ++ tr) t' T0 (run_app _ _ _ _ _ _ Y Y')) as [WW [[_ [_ [_ [_ [_ [_ C7]]]]]] _]].
  pose proof (C7 v y (in_or_app _ _ _ (or_intror J))) as V. destruct G' as [[J1 [J2 _]] [I2 _]]. rewrite I2 in V. destruct (W' v) as [[[b sc] z]|] eqn:E; [|discriminate]. injection V as ->.
  destruct RC' as [p [P1 [P2 _]]]. destruct (J2 _ _ _ _ E) as [[K1 K2]|[K1 K2]]; congruence.
Qed.
(* the latest version never goes backwards *)
Lemma latest_recorded : forall A (s : est A) v s1, reachable (ext_lts A false) s -> lstep (ext_lts A false) s (Some (LLatest v)) s1 -> e_ext s v <> None /\ forall w, v < w -> e_ext s w = None.
Proof.
  intros A s v s1 R L. destruct (ext_inv A s R) as [t [W [[[J1 [J2 [J3 _]]] _] _]]]. cbn in L. inversion L; subst; cbn in *; [auto|].
  match goal with E : o (PFinal _ _) = Some _ |- _ => destruct (J3 _ _ _ E) as [b EW] end. exfalso. destruct (J2 _ _ _ _ EW) as [[K1 _]|[K1 _]]; congruence.
Qed.
Theorem latest_forward : forall A (s : est A) v w tr s' s1 s2, reachable (ext_lts A false) s ->
  lstep (ext_lts A false) s (Some (LLatest v)) s1 -> run (ext_lts A false) s1 tr s' -> lstep (ext_lts A false) s' (Some (LLatest w)) s2 -> v <= w.
Proof.
  intros A s v w tr s' s1 s2 R L1 X L2. destruct (latest_recorded A s v s1 R L1) as [E _]. destruct (recorded_readable A s v R E) as [x RC].
  assert (X' : run (ext_lts A false) s (LLatest v :: tr) s') by (eapply run_l; eassumption).
  assert (RC' : recorded s' v x) by exact (recorded_forever A s _ s' v x R X' RC). destruct RC' as [p [P _]].
  assert (R' : reachable (ext_lts A false) s'). { destruct R as [s0 [tr0 [I0 X0]]]. exists s0, (tr0 ++ LLatest v :: tr). split; [exact I0|exact (run_app _ _ _ _ _ _ X0 X')]. }
  destruct (latest_recorded A s' w s2 R' L2) as [_ U]. apply N.le_ngt. intros LT. rewrite (U v LT) in P. discriminate.
Qed.

(* C32: after the lost answer no reader ever opens the version *)
Lemma dead_run : forall A lossy (s : est A) tr s' v a0 sc0, dead s v a0 sc0 -> run (ext_lts A lossy) s tr s' -> dead s' v a0 sc0 /\ forall x, ~ In (LRead v x) tr.
Proof.
  intros A lossy s tr s' v a0 sc0 D X. induction X as [s|s tr s1 s2 X IH ST|s tr s1 l s2 X IH ST]; [split; [exact D|intros x []]| |]; destruct (IH D) as [D1 N1]; destruct (dead_forever _ _ _ _ _ _ _ _ D1 ST) as [D2 N2].
  - split; assumption.
  - split; [exact D2|]. intros x J. apply In_snoc in J. destruct J as [J|J]; [exact (N1 x J)|]. exact (N2 x (f_equal Some (eq_sym J))).
Qed.
Theorem lost_answer_permanent : exists s v, linit (ext_lts N true) ext0 /\ run (ext_lts N true) ext0 [LBegin 1 v 10; LRet 1 RConflict] s /\ e_ext s v <> None /\
  (forall lossy tr s', run (ext_lts N lossy) s tr s' -> e_ext s' v <> None /\ forall x, ~ In (LRead v x) tr).
Proof.
  eexists. exists 1. split; [repeat split; reflexivity|]. split; [|split].
  - lab (ex_begin _ _ _ _ 1 1 10 V2). tau (ex_write _ _ _ _ 1). tau (ex_put_lost _ _ _ _ 1). tau (ex_del _ _ _ _ 1). lab ex_ret. apply run_nil.
  - discriminate.
  - intros lossy tr s' X. destruct (fun D => dead_run N lossy _ tr s' 1 1 V2 D X) as [D NR].
    + split; [reflexivity|]. split; [reflexivity|]. split; [intros []; reflexivity|]. split; [reflexivity|]. split.
      * intros w sc w' E. cbn in E. unfold upN in E. destruct (w =? 1); discriminate.
      * intros a. cbn. unfold upN. destruct (a =? 1); exact Logic.I.
    + split; [|exact NR]. destruct D as [E _]. rewrite E. discriminate.
Qed.
