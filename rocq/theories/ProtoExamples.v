(* C29-C32, C75: what goes wrong outside the assumptions, and instances. *)
From Coq Require Import List NArith Bool Lia.
From Verif Require Import Lib NamingModel ProtoModel ProtoSpec ProtoProofs ProtoExtProofs.
Import ListNotations.
Local Open Scope N_scope.

Lemma run_app : forall {L} (H : lts L) s tr s1 tr' s2, run H s tr s1 -> run H s1 tr' s2 -> run H s (tr ++ tr') s2.
Proof.
  intros L H s tr s1 tr' s2 X Y. induction Y as [s1|s1 tr' s2 s3 Y IH ST|s1 tr' s2 l s3 Y IH ST].
  - rewrite app_nil_r. exact X.
  - eapply run_tau; [apply IH, X|exact ST].
  - rewrite app_assoc. eapply run_lab; [apply IH, X|exact ST].
Qed.
Lemma run_t : forall {L} (H : lts L) s s1 tr s2, lstep H s None s1 -> run H s1 tr s2 -> run H s tr s2.
Proof. intros L H s s1 tr s2 ST X. apply (run_app H s [] s1 tr s2); [eapply run_tau; [constructor|exact ST]|exact X]. Qed.
Lemma run_l : forall {L} (H : lts L) s l s1 tr s2, lstep H s (Some l) s1 -> run H s1 tr s2 -> run H s (l :: tr) s2.
Proof. intros L H s l s1 tr s2 ST X. apply (run_app H s [l] s1 tr s2); [apply (run_lab H s [] s l s1); [constructor|exact ST]|exact X]. Qed.
Ltac side := first [reflexivity | discriminate | intros; discriminate | intros; reflexivity | (left; reflexivity) | exact Logic.I].
Tactic Notation "tau" uconstr(c) := eapply run_t; [eapply c; side|].
Tactic Notation "lab" uconstr(c) := eapply run_l; [eapply c; side|].

(* a complete commit by renaming, with a loser *)
Example rename_instance : exists s, run (rename_lts N (fun s => s = V2)) {| r_obj := fun _ => None; r_pc := fun _ => RNone |}
  [LBegin 1 1 10; LBegin 2 1 20; LRet 2 ROk; LRet 1 RConflict; LRead 1 20] s.
Proof.
  eexists. lab rn_begin. lab rn_begin. tau (rn_write _ _ _ 1). tau (rn_write _ _ _ 2). tau (rn_rename _ false _ _ 2). tau (rn_exists _ _ _ 1). lab rn_ret.
  tau (rn_del _ true _ _ 1). lab rn_ret. lab (rn_read _ _ _ V2). apply run_nil.
Qed.
Example lock_instance : exists s, run (lock_lts N (fun s => s = V2) false) {| k_obj := fun _ => None; k_lock := fun _ => None; k_pc := fun _ => KNone |}
  [LBegin 1 1 10; LBegin 2 1 20; LRet 2 ROk; LRet 1 RConflict; LRead 1 20] s.
Proof.
  eexists. lab lk_begin. lab lk_begin. tau (lk_lock _ _ _ _ _ 2). tau (lk_head_none _ _ _ _ _ 2). tau (lk_write _ _ _ _ _ 2). tau (lk_release _ _ _ _ _ 2). tau (lk_lock _ _ _ _ _ 1).
  lab lk_ret. tau (lk_head_found _ _ _ _ _ 1). tau (lk_release _ _ _ _ _ 1). lab lk_ret. lab (lk_read _ _ _ _ _ V2). apply run_nil.
Qed.
(* a committer crashes right after put_if_not_exists; a reader finalizes for it *)
Example ext_instance : exists s, run (ext_lts N false) {| e_obj := fun _ => None; e_ext := fun _ => None; e_pc := fun _ => ENone |}
  [LBegin 1 1 10; LBegin 2 1 20; LRet 1 RConflict; LLatest 1; LRead 1 20] s.
Proof.
  eexists. lab (ex_begin _ _ _ _ 1 1 10 V2). lab (ex_begin _ _ _ _ 2 1 20 V1). tau (ex_write _ _ _ _ 1). tau (ex_write _ _ _ _ 2). tau (ex_put _ _ _ _ 2). tau (ex_crash _ _ _ _ 2). tau (ex_put_err _ _ _ _ 1). tau (ex_del _ _ _ _ 1). lab ex_ret.
  eapply run_l; [apply (ex_latest _ _ _ _ 1); [discriminate|intros w H; unfold upN; destruct (N.eqb_spec w 1); [lia|reflexivity]]|].
  tau (ex_open _ _ _ _ 3 1). tau (ex_copy _ _ _ _ 3). tau (ex_flip _ _ _ _ 3). tau (ex_fdel _ _ _ _ 3). lab (ex_read _ _ _ _ 3). apply run_nil.
Qed.

(* ---- C29 without its assumptions ---- *)
Theorem unsafe_refuted : ~ one_winner (unsafe_lts N).
Proof.
  intros C. assert (X : exists s, run (unsafe_lts N) {| u_obj := fun _ => None; u_pc := fun _ => UNone |} [LBegin 1 1 10; LBegin 2 1 20; LRet 1 ROk; LRet 2 ROk] s).
  { eexists. lab (un_begin _ _ _ _ _ V2). lab (un_begin _ _ _ _ _ V2). tau (un_write _ _ 1). tau (un_write _ _ 2). lab un_ret. lab un_ret. apply run_nil. }
  destruct X as [s X]. destruct (fun I => C _ _ _ I X) as [C1 _]; [repeat split; reflexivity|]. discriminate (C1 1 2 1 10 20); cbn; auto.
Qed.
(* writers that name manifests differently: the rename does not collide *)
Theorem mixed_schemes_refuted : ~ one_winner (rename_lts N (fun _ => True)).
Proof.
  intros C. assert (X : exists s, run (rename_lts N (fun _ => True)) {| r_obj := fun _ => None; r_pc := fun _ => RNone |} [LBegin 1 1 10; LBegin 2 1 20; LRet 1 ROk; LRet 2 ROk] s).
  { eexists. lab (rn_begin _ _ _ 1 _ _ V1). lab (rn_begin _ _ _ 2 _ _ V2). tau (rn_write _ _ _ 1). tau (rn_write _ _ _ 2). tau (rn_rename _ false _ _ 1). tau (rn_rename _ false _ _ 2). lab rn_ret. lab rn_ret. apply run_nil. }
  destruct X as [s X]. destruct (fun I => C _ _ _ I X) as [C1 _]; [repeat split; reflexivity|]. discriminate (C1 1 2 1 10 20); cbn; auto.
Qed.
(* a lock that times out under a live holder *)
Theorem lock_timeout_refuted : ~ one_winner (lock_lts N (fun s => s = V2) true).
Proof.
  intros C. assert (X : exists s, run (lock_lts N (fun s => s = V2) true) {| k_obj := fun _ => None; k_lock := fun _ => None; k_pc := fun _ => KNone |} [LBegin 1 1 10; LBegin 2 1 20; LRet 1 ROk; LRet 2 ROk] s).
  { eexists. lab lk_begin. lab lk_begin. tau (lk_lock _ _ _ _ _ 1). tau (lk_head_none _ _ _ _ _ 1). tau (lk_expire _ _ _ _ _ 1). tau (lk_lock _ _ _ _ _ 2). tau (lk_head_none _ _ _ _ _ 2).
    tau (lk_write _ _ _ _ _ 1). tau (lk_write _ _ _ _ _ 2). tau (lk_release _ _ _ _ _ 1). tau (lk_release _ _ _ _ _ 2). lab (lk_ret _ _ _ _ _ 1). lab (lk_ret _ _ _ _ _ 2). apply run_nil. }
  destruct X as [s X]. destruct (fun I => C _ _ _ I X) as [C1 _]; [repeat split; reflexivity|]. discriminate (C1 1 2 1 10 20); cbn; auto.
Qed.

(* ---- C32: the answer of put_if_not_exists is lost ----
   The committer is told of a conflict; the store has its version, and its contents
   are gone: neither the recorded path nor the final path exists. *)
Definition ext0 : est N := {| e_obj := fun _ => None; e_ext := fun _ => None; e_pc := fun _ => ENone |}.
Theorem lost_answer_refuted : exists s v, run (ext_lts N true) ext0 [LBegin 1 v 10; LRet 1 RConflict] s /\ linit (ext_lts N true) ext0 /\
  e_ext s v <> None /\ (forall x, ~ recorded s v x) /\ (forall sc, e_obj s (PFinal sc v) = None).
Proof.
  eexists. exists 1. split.
  - lab (ex_begin _ _ _ _ 1 1 10 V2). tau (ex_write _ _ _ _ 1). tau (ex_put_lost _ _ _ _ 1). tau (ex_del _ _ _ _ 1). lab ex_ret. apply run_nil.
  - split; [repeat split; reflexivity|]. split; [discriminate|]. split; [|intros []; reflexivity]. intros x [p [E [O _]]]. cbn in *. injection E as <-. discriminate.
Qed.
(* and nobody ever reads that version again, whatever happens next *)
Definition pc_dead {A} (v a0 : N) (sc0 : scheme) (pc : epc A) : Prop :=
  match pc with
  | EF2 _ w _ _ | EF3 _ w _ _ => w <> v
  | EF1 _ w p _ => w = v -> p = PStage sc0 v a0
  | EBoard w p => w <> v /\ exists sc, p = PFinal sc w
  | ERead w p => exists sc, p = PFinal sc w
  | _ => True
  end.
Definition dead {A} (s : est A) (v : N) (a0 : N) (sc0 : scheme) : Prop :=
  e_ext s v = Some (PStage sc0 v a0) /\ e_obj s (PStage sc0 v a0) = None /\ (forall sc, e_obj s (PFinal sc v) = None) /\ e_pc s a0 = EDone /\
  (forall w sc w', e_ext s w = Some (PFinal sc w') -> w' = w) /\ (forall a, pc_dead v a0 sc0 (e_pc s a)).
Lemma dead_next : forall A (o o' : path -> option A) e e' pc v a0 sc0 a pc', dead {| e_obj := o; e_ext := e; e_pc := pc |} v a0 sc0 -> (a = a0 -> pc' = EDone) ->
  o' (PStage sc0 v a0) = None -> (forall sc, o' (PFinal sc v) = None) -> e' v = e v -> (forall w sc w', e' w = Some (PFinal sc w') -> w' = w) -> pc_dead v a0 sc0 pc' ->
  dead {| e_obj := o'; e_ext := e'; e_pc := upN pc a pc' |} v a0 sc0.
Proof.
  intros A o o' e e' pc v a0 sc0 a pc' (D1 & D2 & D3 & D4 & D5 & DP) NA O1 O2 E1 E2 P. cbn in *. repeat apply conj; cbn; try assumption; try congruence.
  - destruct (N.eq_dec a0 a) as [<-|n]; up; [apply NA; reflexivity|exact D4].
  - intros b. destruct (N.eq_dec b a) as [->|n]; up; [exact P|apply DP].
Qed.
Theorem dead_forever : forall A lossy (s : est A) l s' v a0 sc0, dead s v a0 sc0 -> lstep (ext_lts A lossy) s l s' -> dead s' v a0 sc0 /\ forall x, l <> Some (LRead v x).
Proof.
  intros A lossy s l s' v a0 sc0 D ST. pose proof D as (D1 & D2 & D3 & D4 & D5 & DP). cbn [lstep ext_lts] in ST.
  assert (PF : forall e : N -> option path, (forall w sc w', e w = Some (PFinal sc w') -> w' = w) -> forall u sc w sc' w', upN e u (Some (PFinal sc u)) w = Some (PFinal sc' w') -> w' = w).
  { intros e HE u sc w sc' w' E. destruct (N.eq_dec w u) as [->|n]; up; [congruence|exact (HE _ _ _ E)]. }
  inversion ST; subst; cbn [e_obj e_ext e_pc] in *;
  try (match goal with DP : forall a, pc_dead _ _ _ (?f a), E : ?f ?a = _ |- _ => pose proof (DP a) as DA; rewrite E in DA; cbn in DA; assert (NA : a <> a0) by (intros ->; congruence) end);
  (split; [|try discriminate]);
  try (eapply dead_next; [exact D|intros ->; first [reflexivity|congruence]| | | | |]; cbn; auto; fail).
  - (* write *) eapply dead_next; [exact D|congruence| | | | |]; cbn; auto. up. exact D2.
  - destruct b; (eapply dead_next; [exact D|congruence| | | | |]; cbn; auto). up. exact D2.
  - (* put *) assert (v0 <> v) by congruence. eapply dead_next; [exact D|congruence| | | | |]; cbn; auto; [up; reflexivity| |congruence]. intros w sc w' E. destruct (N.eq_dec w v0) as [->|n]; up; [congruence|exact (D5 _ _ _ E)].
  - (* put lost *) assert (v0 <> v) by congruence. eapply dead_next; [exact D|congruence| | | | |]; cbn; auto; [up; reflexivity|]. intros w sc w' E. destruct (N.eq_dec w v0) as [->|n]; up; [congruence|exact (D5 _ _ _ E)].
  - (* delete *) eapply dead_next; [exact D|congruence| | | | |]; cbn; auto. up. exact D2.
  - destruct b; (eapply dead_next; [exact D|congruence| | | | |]; cbn; auto). up. exact D2.
  - (* copy *) assert (v0 <> v) by (intros ->; rewrite (DA eq_refl) in *; congruence). eapply dead_next; [exact D|congruence| | | | |]; cbn; auto. intros sc. up. apply D3.
  - (* copy missing *) eapply dead_next; [exact D|congruence| | | | |]; cbn; auto. destruct w; cbn; eauto.
  - (* copy error *) eapply dead_next; [exact D|congruence| | | | |]; cbn; auto. destruct w; cbn; eauto.
  - (* copy lost *) assert (v0 <> v) by (intros ->; rewrite (DA eq_refl) in *; congruence). eapply dead_next; [exact D|congruence| | | | |]; cbn; auto; [intros sc; up; apply D3|destruct w; cbn; eauto].
  - (* flip *) eapply dead_next; [exact D|congruence| | | | |]; cbn; auto; [up; reflexivity|]. apply PF, D5.
  - destruct b; (eapply dead_next; [exact D|congruence| | | | |]; cbn; auto); try (destruct w; cbn; eauto; fail); first [up; reflexivity | apply PF, D5].
  - (* final delete *) eapply dead_next; [exact D|congruence| | | | |]; cbn; auto; [| |destruct w; cbn; eauto].
    + destruct (upP_case o p None (PStage sc0 v a0)) as [[_ ->]|[_ ->]]; [reflexivity|exact D2].
    + intros sc. destruct (upP_case o p None (PFinal sc v)) as [[_ ->]|[_ ->]]; [reflexivity|apply D3].
  - destruct b; (eapply dead_next; [exact D|congruence| | | | |]; cbn; auto); try (destruct w; cbn; eauto; fail).
    + destruct (upP_case o p None (PStage sc0 v a0)) as [[_ ->]|[_ ->]]; [reflexivity|exact D2].
    + intros sc. destruct (upP_case o p None (PFinal sc v)) as [[_ ->]|[_ ->]]; [reflexivity|apply D3].
  - (* open *) eapply dead_next; [exact D|congruence| | | | |]; cbn; auto. destruct (e v0) as [[sc w|sc w a']|] eqn:E; cbn; [exists sc; f_equal; exact (D5 _ _ _ E)| |exact Logic.I]. intros ->. congruence.
  - (* miss *) eapply dead_next; [exact D|congruence| | | | |]; cbn; auto. destruct (o (PFinal V2 v0)) eqn:E; cbn; [|exact Logic.I]. split; [|eauto]. intros ->. congruence.
  - (* miss1 *) eapply dead_next; [exact D|congruence| | | | |]; cbn; auto. destruct (o (PFinal V1 v0)) eqn:E; cbn; [|exact Logic.I]. split; [|eauto]. intros ->. congruence.
  - (* board *) destruct DA as [DA [sc ->]]. destruct b; (eapply dead_next; [exact D|congruence| | | | |]; cbn; eauto); first [up; reflexivity | apply PF, D5].
  - (* read *) intros x0 E. injection E as -> ->. destruct DA as [sc ->]. congruence.
  - exact D.
  - exact D.
Qed.

(* ---- C75: adopting an external store for a table with five versions ----
   One read of version 3 by number enters version 3 into the empty store; from then on
   version 3 is the latest, and the next commit overwrites version 4. *)
Definition old_obj (p : path) : option N := match p with PFinal V2 v => if (1 <=? v) && (v <=? 5) then Some (v * 10) else None | _ => None end.
Definition adopted : est N := {| e_obj := old_obj; e_ext := fun _ => None; e_pc := fun _ => ENone |}.
Lemma old_obj_above : forall s w, 5 < w -> old_obj (PFinal s w) = None.
Proof. intros [] w H; cbn; [reflexivity|]. replace (w <=? 5) with false by (symmetry; apply N.leb_gt; exact H). rewrite andb_false_r. reflexivity. Qed.
Theorem adoption_refuted : exists s, run (ext_lts N false) adopted [LLatest 5; LRead 3 30; LLatest 3; LBegin 2 4 99; LRet 2 ROk; LLatest 4; LRead 4 99] s /\
  e_obj adopted (PFinal V2 4) = Some 40 /\ e_obj s (PFinal V2 4) = Some 99.
Proof.
  eexists. split.
  - eapply run_l; [apply (ex_latest_list _ _ _ _ V2 5 50); [reflexivity|reflexivity|apply old_obj_above]|].
    tau (ex_open _ _ _ _ 1 3). tau (ex_miss _ _ _ _ 1). tau (ex_board _ true _ _ _ 1). lab (ex_read _ _ _ _ 1).
    eapply run_l; [apply (ex_latest _ _ _ _ 3); [discriminate|intros w H; cbn; unfold upN; destruct (N.eqb_spec w 3); [lia|reflexivity]]|].
    lab (ex_begin _ _ _ _ 2 4 99 V2). tau (ex_write _ _ _ _ 2). tau (ex_put _ _ _ _ 2). tau (ex_copy _ _ _ _ 2). tau (ex_flip _ _ _ _ 2). tau (ex_fdel _ _ _ _ 2). lab (ex_ret _ _ _ _ 2).
    eapply run_l; [apply (ex_latest _ _ _ _ 4); [discriminate|intros w H; cbn; unfold upN; destruct (N.eqb_spec w 4); [lia|destruct (N.eqb_spec w 3); [lia|reflexivity]]]|].
    tau (ex_open _ _ _ _ 3 4). lab (ex_read _ _ _ _ 3). apply run_nil.
  - split; reflexivity.
Qed.
