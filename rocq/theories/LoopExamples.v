(* C34, C35, C76: runs of the commit loop. *)
From Coq Require Import List Arith NArith ZArith Bool Lia.
From Verif Require Import Lib AMap TxnModel TxnExamples NamingModel ProtoModel ProtoSpec ProtoProofs ProtoExtProofs ProtoExamples ProtoResults LoopModel LoopProofs.
Import ListNotations.
Local Open Scope N_scope.

Definition the (r : bres entry) : entry := match r with BOk x => x | _ => dummy end.
Definition f0 := frag 0 10 5 [0%Z; 1%Z].
Definition t2 := tx 1 2 (UpdateConfig (Some [(1, 1)]) None None None).
Definition t3 := tx 2 3 (Delete [with_del f0 7] []).
Definition t4 := tx 1 4 (Delete [with_del f0 8] []).
Definition t5 := tx 1 5 (UpdateConfig (Some [(2, 2)]) None None None).
Definition x1 : entry := Eval vm_compute in the (new_build created dflt 1).
Definition x2 : entry := Eval vm_compute in the (loop_build t2 dflt 2 1 x1 None).
Definition x3 : entry := Eval vm_compute in the (loop_build t3 dflt 3 2 x2 None).
Definition x4 : entry := Eval vm_compute in the (loop_build t4 dflt 4 3 x3 None).
Definition x5 : entry := Eval vm_compute in the (loop_build t5 dflt 5 1 x1 None).

Ltac cw := cbv [upN N.eqb Pos.eqb].
Ltac fin := first [reflexivity | discriminate | (vm_compute; reflexivity) | (intros; discriminate) | (vm_compute; auto; fail)].
Lemma no_restore_op : forall o : op, match o with Restore _ => False | _ => True end -> forall v, o <> Restore v.
Proof. intros o H v ->. exact H. Qed.
Ltac finr := first [(apply no_restore_op; exact Logic.I) | fin].
Section Steps.
Context (skip : bool) (seen : txn -> txn) (H : lts (label entry)).
Lemma run_w : forall (s : lst H) w i p tr s2, wstep skip seen (w i) None p -> run (loop_lts skip seen H) (s, upN w i p) tr s2 -> run (loop_lts skip seen H) (s, w) tr s2.
Proof. intros s w i p tr s2 W X. eapply run_t; [|exact X]. apply lp_tau, W. Qed.
Lemma run_s : forall (s s' : lst H) w tr s2, lstep H s None s' -> run (loop_lts skip seen H) (s', w) tr s2 -> run (loop_lts skip seen H) (s, w) tr s2.
Proof. intros s s' w tr s2 W X. eapply run_t; [|exact X]. apply lp_store, W. Qed.
Lemma run_e : forall (s s' : lst H) w l tr s2, lstep H s (Some l) s' -> begins l = false -> run (loop_lts skip seen H) (s', w) tr s2 -> run (loop_lts skip seen H) (s, w) (l :: tr) s2.
Proof. intros s s' w l tr s2 W B X. eapply run_l; [|exact X]. apply lp_env; assumption. Qed.
Lemma run_sync : forall i (s s' : lst H) w p l tr s2, lstep H s (Some l) s' -> wstep skip seen (w i) (Some l) p ->
  run (loop_lts skip seen H) (s', upN w i p) tr s2 -> run (loop_lts skip seen H) (s, w) (l :: tr) s2.
Proof. intros i s s' w p l tr s2 W B X. eapply run_l; [|exact X]. eapply lp_sync; eassumption. Qed.
End Steps.
(* one step of writer i; c is the store's part *)
Ltac loop_goal k := match goal with |- run (loop_lts ?a ?b ?H) (?s, ?w) _ _ => k a b H s w end.
Ltac do_w i := loop_goal ltac:(fun a b H s w => eapply (run_w a b H s w i)).
Ltac do_s := loop_goal ltac:(fun a b H s w => eapply (run_s a b H s _ w)).
Ltac do_e := loop_goal ltac:(fun a b H s w => eapply (run_e a b H s _ w)).
Ltac do_sync i := loop_goal ltac:(fun a b H s w => eapply (run_sync a b H i s _ w)).
Tactic Notation "wt" constr(i) uconstr(d) := do_w i; [cw; eapply d; finr|].
Tactic Notation "ws" constr(i) uconstr(c) uconstr(d) := do_sync i; [eapply c; fin|cw; eapply d; finr|].

(* ---- over the atomic register ---- *)
Definition reg0 : ast entry := {| a_vers := fun _ => None; a_st := fun _ => SNone |}.
Definition loop0 : ast entry * (N -> wpc) := (reg0, fun _ => WIdle).
(* two writers race for version 2; the loser retries as version 3 *)
Example race_instance : exists s, run (loop_lts true (fun t => t) (abs_lts entry)) loop0
  [LBegin 1 1 x1; LRet 1 ROk; LRead 1 x1; LRead 1 x1; LLatest 1; LRead 1 x1; LLatest 1; LRead 1 x1;
   LBegin 2 2 x2; LBegin 5 2 x5; LRet 2 ROk; LRet 5 RConflict; LLatest 2; LRead 2 x2; LRead 2 x2] s /\ snd s 2 = WDone t2 2 /\ exists e, snd s 5 = WCheck t5 dflt 5 false 3 2 e [].
Proof.
  unfold loop0, reg0. eexists. split.
  - wt 1 (w_new _ _ created dflt 1 x1). ws 1 (as_begin _ _ 1 1 x1) (w_new_begin). do_s; [eapply (as_commit _ _ 1); fin|]. ws 1 (as_ok _ _ 1) (w_new_ok).
    ws 2 (as_read _ _ 1 x1) (w_start _ _ t2 dflt 2). ws 5 (as_read _ _ 1 x1) (w_start _ _ t5 dflt 5). ws 2 (as_latest _ _ 1) (w_latest _ _ _ _ _ 5). ws 2 (as_read _ _ 1 x1) (w_latest_read).
    ws 5 (as_latest _ _ 1) (w_latest _ _ _ _ _ 4). ws 5 (as_read _ _ 1 x1) (w_latest_read). wt 2 w_checked. wt 5 w_checked. wt 2 (w_build _ _ _ _ _ _ _ _ x2). wt 5 (w_build _ _ _ _ _ _ _ _ x5).
    ws 2 (as_begin _ _ 2 2 x2) (w_begin). ws 5 (as_begin _ _ 5 2 x5) (w_begin). do_s; [eapply (as_commit _ _ 2); fin|]. ws 2 (as_ok _ _ 2) (w_ok). ws 5 (as_conflict _ _ 5) (w_conflict).
    ws 5 (as_latest _ _ 2) (w_retry). ws 5 (as_read _ _ 2 x2) (w_latest_read). ws 5 (as_read _ _ 2 x2) (w_check_ok _ _ _ _ _ _ _ _ _ _ 2). apply run_nil.
  - split; [reflexivity|]. eexists. reflexivity.
Qed.

(* ---- C35 ---- *)
Definition clean0 : cst * (N -> wpc) := ({| c_reg := reg0; c_gone := fun _ => false |}, fun _ => WIdle).
Definition remaining_claim (skip tomb : bool) : Prop :=
  forall s, reachable (loop_lts skip (fun t => t) (clean_lts tomb)) s ->
  forall i t v u y, snd s i = WDone t v -> t_read t < u < v -> a_vers (c_reg (fst s)) u = Some y -> conflicts_with (t_op t) (t_op (e_txn y)) = false.
Tactic Notation "cs" constr(i) uconstr(c) uconstr(d) := do_sync i; [eapply cl_reg; [eapply c; fin|try (intros _ ? E; discriminate E)]|cw; eapply d; finr|].
Tactic Notation "cc" constr(a) := do_s; [eapply cl_reg; [eapply (as_commit _ _ a); fin|]|].
(* version 2 was removed: version 3, which conflicts, is not looked at *)
Theorem skipped_check_refuted : ~ remaining_claim true true.
Proof.
  intros C. assert (X : exists s, run (loop_lts true (fun t => t) (clean_lts true)) clean0
    [LBegin 1 1 x1; LRet 1 ROk; LRead 1 x1; LRead 1 x1; LLatest 1; LRead 1 x1; LBegin 2 2 x2; LRet 2 ROk; LRead 2 x2; LLatest 2; LRead 2 x2; LBegin 3 3 x3; LRet 3 ROk;
     LLatest 3; LRead 3 x3; LGone 2; LBegin 4 4 x4; LRet 4 ROk] s /\ snd s 4 = WDone t4 4 /\ a_vers (c_reg (fst s)) 3 = Some x3).
  { unfold clean0, reg0. eexists. split.
    - wt 1 (w_new _ _ created dflt 1 x1). cs 1 (as_begin _ _ 1 1 x1) (w_new_begin). cc 1; [intros _ ? E; discriminate E|]. cs 1 (as_ok _ _ 1) (w_new_ok).
      cs 2 (as_read _ _ 1 x1) (w_start _ _ t2 dflt 2). cs 4 (as_read _ _ 1 x1) (w_start _ _ t4 dflt 4). cs 2 (as_latest _ _ 1) (w_latest _ _ _ _ _ 5). cs 2 (as_read _ _ 1 x1) (w_latest_read).
      wt 2 w_checked. wt 2 (w_build _ _ _ _ _ _ _ _ x2). cs 2 (as_begin _ _ 2 2 x2) (w_begin). cc 2; [intros _ ? E; discriminate E|]. cs 2 (as_ok _ _ 2) (w_ok).
      cs 3 (as_read _ _ 2 x2) (w_start _ _ t3 dflt 3). cs 3 (as_latest _ _ 2) (w_latest _ _ _ _ _ 5). cs 3 (as_read _ _ 2 x2) (w_latest_read).
      wt 3 w_checked. wt 3 (w_build _ _ _ _ _ _ _ _ x3). cs 3 (as_begin _ _ 3 3 x3) (w_begin). cc 3; [intros _ ? E; discriminate E|]. cs 3 (as_ok _ _ 3) (w_ok).
      do_s; [eapply (cl_remove _ _ _ _ 2 3 x2); fin|].
      assert (G : forall v, upN (fun _ : N => false) 2 true v = true -> v = 2) by (intros v E; unfold upN in E; destruct (N.eqb_spec v 2); [assumption|discriminate]).
      cs 4 (as_latest _ _ 3) (w_latest _ _ _ _ _ 5); [intros _ v E; apply G in E; subst v; reflexivity|]. cs 4 (as_read _ _ 3 x3) (w_latest_read); [intros _ v E; apply G in E; subst v; reflexivity|].
      do_sync 4; [eapply (cl_gone _ _ _ 2); fin|cw; eapply w_check_gone; fin|].
      wt 4 w_checked. wt 4 (w_build _ _ _ _ _ _ _ _ x4). cs 4 (as_begin _ _ 4 4 x4) (w_begin); [intros _ v E; apply G in E; subst v; reflexivity|]. cc 4; [intros _ v E; apply G in E; subst v; reflexivity|].
      cs 4 (as_ok _ _ 4) (w_ok); [intros _ v E; apply G in E; subst v; reflexivity|]. apply run_nil.
    - split; reflexivity. }
  destruct X as [s [X [D E]]]. assert (R : reachable (loop_lts true (fun t => t) (clean_lts true)) s) by (exists clean0; eexists; split; [repeat split; reflexivity|exact X]).
  pose proof (C s R 4 t4 4 3 x3 D (conj eq_refl eq_refl) E) as F. vm_compute in F. discriminate.
Qed.

(* ---- C76: a slow writer commits under the number of a removed version ---- *)
Theorem reused_number_refuted : ~ immutable (loop_lts true (fun t => t) (clean_lts false)).
Proof.
  intros C. assert (X : exists s, run (loop_lts true (fun t => t) (clean_lts false)) clean0
    [LBegin 1 1 x1; LRet 1 ROk; LRead 1 x1; LRead 1 x1; LLatest 1; LRead 1 x1; LLatest 1; LRead 1 x1; LBegin 2 2 x2; LRet 2 ROk; LRead 2 x2; LLatest 2; LRead 2 x2; LBegin 3 3 x3; LRet 3 ROk;
     LBegin 5 2 x5; LRet 5 ROk; LRead 2 x5] s).
  { unfold clean0, reg0. eexists.
    wt 1 (w_new _ _ created dflt 1 x1). cs 1 (as_begin _ _ 1 1 x1) (w_new_begin). cc 1; [discriminate|]. cs 1 (as_ok _ _ 1) (w_new_ok).
    cs 2 (as_read _ _ 1 x1) (w_start _ _ t2 dflt 2). cs 5 (as_read _ _ 1 x1) (w_start _ _ t5 dflt 5). cs 2 (as_latest _ _ 1) (w_latest _ _ _ _ _ 5). cs 2 (as_read _ _ 1 x1) (w_latest_read).
    cs 5 (as_latest _ _ 1) (w_latest _ _ _ _ _ 4). cs 5 (as_read _ _ 1 x1) (w_latest_read). wt 5 w_checked. wt 5 (w_build _ _ _ _ _ _ _ _ x5).
    wt 2 w_checked. wt 2 (w_build _ _ _ _ _ _ _ _ x2). cs 2 (as_begin _ _ 2 2 x2) (w_begin). cc 2; [discriminate|]. cs 2 (as_ok _ _ 2) (w_ok).
    cs 3 (as_read _ _ 2 x2) (w_start _ _ t3 dflt 3). cs 3 (as_latest _ _ 2) (w_latest _ _ _ _ _ 5). cs 3 (as_read _ _ 2 x2) (w_latest_read).
    wt 3 w_checked. wt 3 (w_build _ _ _ _ _ _ _ _ x3). cs 3 (as_begin _ _ 3 3 x3) (w_begin). cc 3; [discriminate|]. cs 3 (as_ok _ _ 3) (w_ok).
    do_s; [eapply (cl_remove _ _ _ _ 2 3 x2); fin|].
    cs 5 (as_begin _ _ 5 2 x5) (w_begin); [discriminate|]. cc 5; [discriminate|]. cs 5 (as_ok _ _ 5) (w_ok); [discriminate|].
    do_e; [eapply cl_reg; [eapply (as_read _ _ 2 x5); fin|discriminate]|reflexivity|]. apply run_nil. }
  destruct X as [s X]. assert (I : linit (loop_lts true (fun t => t) (clean_lts false)) clean0) by (repeat split; reflexivity).
  assert (E : x2 = x5) by (apply (C clean0 _ s I X 2 x2 x5); cbn; tauto). discriminate E.
Qed.
