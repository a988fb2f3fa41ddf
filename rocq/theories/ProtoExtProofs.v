(* C29-C32 for ExternalManifestCommitHandler. *)
From Coq Require Import List NArith Bool Lia.
From Verif Require Import Lib NamingModel ProtoModel ProtoSpec ProtoProofs.
Import ListNotations.
Local Open Scope N_scope.

(* W: the attempt that won each version, with its scheme and manifest *)
Definition rel_e {A} (W : N -> option (N * scheme * A)) (o : path -> option A) (e : N -> option path) (a : N) (pc : epc A) (st : status A) : Prop :=
  match pc with
  | ENone => st = SNone
  | EW0 v x s | EDel v x s => st = SActive v x
  | EW1 v x s => st = SActive v x /\ o (PStage s v a) = Some x
  | EF1 w v p s => exists b x, W v = Some (b, s, x) /\ p = PStage s v b /\ (w = true -> st = SWon v x)
  | EF2 w v p s => exists b x, W v = Some (b, s, x) /\ p = PStage s v b /\ (w = true -> st = SWon v x) /\ o (PFinal s v) = Some x
  | EF3 w v p s => exists b x, W v = Some (b, s, x) /\ p = PStage s v b /\ (w = true -> st = SWon v x) /\ o (PFinal s v) = Some x /\ e v = Some (PFinal s v)
  | ERet ROk => exists v x, st = SWon v x
  | ERet RConflict => exists v x, st = SActive v x
  | ERet RErr => exists v x, st = SActive v x \/ st = SWon v x
  | EBoard v p | ERead v p => exists b s x, W v = Some (b, s, x) /\ p = PFinal s v /\ o p = Some x
  | _ => True
  end.
Definition past {A} (pc : epc A) : Prop := match pc with ENone | EW0 _ _ _ | EW1 _ _ _ | EDel _ _ _ => False | _ => True end.
Definition winv {A} (W : N -> option (N * scheme * A)) (o : path -> option A) (e : N -> option path) : Prop :=
  (forall v, W v = None -> e v = None) /\
  (forall v a s x, W v = Some (a, s, x) -> (e v = Some (PStage s v a) /\ o (PStage s v a) = Some x) \/ (e v = Some (PFinal s v) /\ o (PFinal s v) = Some x)) /\
  (forall s v y, o (PFinal s v) = Some y -> exists a, W v = Some (a, s, y)) /\
  (forall v a s x y, W v = Some (a, s, x) -> o (PStage s v a) = Some y -> y = x).
Definition ginv {A} (W : N -> option (N * scheme * A)) (s : est A) (t : ast A) : Prop :=
  winv W (e_obj s) (e_ext s) /\
  (forall v, a_vers t v = option_map snd (W v)) /\
  (forall v a sc x, W v = Some (a, sc, x) -> past (e_pc s a)) /\
  (forall a, rel_e W (e_obj s) (e_ext s) a (e_pc s a) (a_st t a)).
Definition sim_e {A} (s : est A) (t : ast A) : Prop := exists W, ginv W s t.

Lemma rel_e_stable : forall {A} (W W' : N -> option (N * scheme * A)) o o' e e' a pc st,
  (forall v w, W v = Some w -> W' v = Some w) -> (forall s v x, o (PFinal s v) = Some x -> o' (PFinal s v) = Some x) ->
  (forall s v, e v = Some (PFinal s v) -> e' v = Some (PFinal s v)) -> (forall v x s, pc = EW1 v x s -> o' (PStage s v a) = o (PStage s v a)) ->
  rel_e W o e a pc st -> rel_e W' o' e' a pc st.
Proof.
  intros A W W' o o' e e' a pc st HW HO HE HS H. destruct pc as [|v x s|v x s|v x s|w v p s|w v p s|w v p s|r|v|v|v p|v p|]; cbn in *; auto.
  - rewrite (HS v x s eq_refl). exact H.
  - destruct H as [b [x [H1 H2]]]. exists b, x. auto.
  - destruct H as [b [x [H1 [H2 [H3 H4]]]]]. exists b, x. auto.
  - destruct H as [b [x [H1 [H2 [H3 [H4 H5]]]]]]. exists b, x. repeat split; auto.
  - destruct H as [b [s [x [H1 [-> H3]]]]]. exists b, s, x. auto.
  - destruct H as [b [s [x [H1 [-> H3]]]]]. exists b, s, x. auto.
Qed.
(* steps that only move a's own program counter *)
Lemma local_step : forall {A} W o e (pc : N -> epc A) vers st a pc' st', ginv W {| e_obj := o; e_ext := e; e_pc := pc |} {| a_vers := vers; a_st := st |} ->
  rel_e W o e a pc' st' -> (past (pc a) -> past pc') ->
  ginv W {| e_obj := o; e_ext := e; e_pc := upN pc a pc' |} {| a_vers := vers; a_st := upN st a st' |}.
Proof.
  intros A W o e pc vers st a pc' st' [I1 [I2 [I3 I4]]] R P. cbn in *. split; [exact I1|]. split; [exact I2|]. split; cbn.
  - intros v b sc x E. destruct (N.eq_dec b a) as [->|n]; up; [apply P; eapply I3; exact E|eapply I3; exact E].
  - intros b. destruct (N.eq_dec b a) as [->|n]; up; [exact R|apply I4].
Qed.
Lemma upN_self : forall {B} (f : N -> B) a b, upN f a (f a) b = f b.
Proof. intros. unfold upN. destruct (N.eqb_spec b a); congruence. Qed.
(* ... and leave the attempt's status *)
Lemma local_tau : forall {A} W o e (pc : N -> epc A) vers st a pc', ginv W {| e_obj := o; e_ext := e; e_pc := pc |} {| a_vers := vers; a_st := st |} ->
  rel_e W o e a pc' (st a) -> (past (pc a) -> past pc') ->
  ginv W {| e_obj := o; e_ext := e; e_pc := upN pc a pc' |} {| a_vers := vers; a_st := st |}.
Proof.
  intros A W o e pc vers st a pc' G R P. destruct (local_step W o e pc vers st a pc' (st a) G R P) as [I1 [I2 [I3 I4]]]. cbn in *.
  split; [exact I1|]. split; [exact I2|]. split; [exact I3|]. intros b. specialize (I4 b). cbn in *. rewrite upN_self in I4. exact I4.
Qed.
(* a write to a staging path of an attempt that has not won *)
Lemma stage_write : forall {A} W o e (pc : N -> epc A) vers st a s v y, ginv W {| e_obj := o; e_ext := e; e_pc := pc |} {| a_vers := vers; a_st := st |} ->
  ~ past (pc a) -> (forall v x s, pc a <> EW1 v x s) -> ginv W {| e_obj := upP o (PStage s v a) y; e_ext := e; e_pc := pc |} {| a_vers := vers; a_st := st |}.
Proof.
  intros A W o e pc vers st a s v y [[J1 [J2 [J3 J4]]] [I2 [I3 I4]]] NP NE. cbn in *.
  assert (NW : forall w b sc x, W w = Some (b, sc, x) -> b <> a) by (intros w b sc x E ->; apply NP; eapply I3; exact E).
  split; [|split; [exact I2|split; [exact I3|]]]; cbn.
  - split; [exact J1|]. split; [|split].
    + intros w b sc x E. pose proof (NW _ _ _ _ E). up. apply J2, E.
    + intros sc w z. up. apply J3.
    + intros w b sc x z E. pose proof (NW _ _ _ _ E). up. apply J4, E.
  - intros b. eapply rel_e_stable; [| | | |apply I4]; auto.
    intros w x sc E. destruct (N.eq_dec b a) as [->|n]; [exfalso; exact (NE w x sc E)|]. up. reflexivity.
Qed.
(* the copy to the final path *)
Lemma final_write : forall {A} W o e (pc : N -> epc A) vers st s v b x, ginv W {| e_obj := o; e_ext := e; e_pc := pc |} {| a_vers := vers; a_st := st |} ->
  W v = Some (b, s, x) -> ginv W {| e_obj := upP o (PFinal s v) (Some x); e_ext := e; e_pc := pc |} {| a_vers := vers; a_st := st |}.
Proof.
  intros A W o e pc vers st s v b x [[J1 [J2 [J3 J4]]] [I2 [I3 I4]]] E0. cbn in *.
  split; [|split; [exact I2|split; [exact I3|]]]; cbn.
  - split; [exact J1|]. split; [|split].
    + intros w c sc z E. destruct (J2 _ _ _ _ E) as [[K1 K2]|[K1 K2]]; [left|right]; (split; [exact K1|]); up; [exact K2|].
      destruct (path_dec (PFinal sc w) (PFinal s v)) as [Q|Q]; [|up; exact K2]. injection Q as -> ->. up. congruence.
    + intros sc w z E. destruct (path_dec (PFinal sc w) (PFinal s v)) as [Q|Q]; up; [|exact (J3 _ _ _ E)]. injection Q as -> ->. up. injection E as <-. exists b. exact E0.
    + intros w c sc z z' E. up. apply J4, E.
  - intros c. eapply rel_e_stable; [| | | |apply I4]; auto.
    intros sc w z E. destruct (path_dec (PFinal sc w) (PFinal s v)) as [Q|Q]; [|up; exact E]. injection Q as -> ->. up. destruct (J3 _ _ _ E) as [c' E']. congruence.
Qed.
(* flipping the store to the final path *)
Lemma flip : forall {A} W o e (pc : N -> epc A) vers st s v b x, ginv W {| e_obj := o; e_ext := e; e_pc := pc |} {| a_vers := vers; a_st := st |} ->
  W v = Some (b, s, x) -> o (PFinal s v) = Some x -> ginv W {| e_obj := o; e_ext := upN e v (Some (PFinal s v)); e_pc := pc |} {| a_vers := vers; a_st := st |}.
Proof.
  intros A W o e pc vers st s v b x [[J1 [J2 [J3 J4]]] [I2 [I3 I4]]] E0 EO. cbn in *.
  split; [|split; [exact I2|split; [exact I3|]]]; cbn.
  - split; [|split; [|split; [exact J3|exact J4]]].
    + intros w E. destruct (N.eq_dec w v) as [->|n]; [congruence|]. up. apply J1, E.
    + intros w c sc z E. destruct (N.eq_dec w v) as [->|n]; [|up; apply J2, E]. right. rewrite E0 in E. injection E as <- <- <-. up. auto.
  - intros c. eapply rel_e_stable; [| | | |apply I4]; auto. intros sc w E. destruct (N.eq_dec w v) as [->|n]; [|up; exact E]. up.
    destruct (W v) as [[[b' s'] x']|] eqn:EW; [|rewrite (J1 v EW) in E; discriminate]. injection E0 as -> -> ->. destruct (J2 v b s x EW) as [[K _]|[K _]]; congruence.
Qed.
(* deleting the staging manifest of a flipped version *)
Lemma stage_delete : forall {A} W o e (pc : N -> epc A) vers st s v b x, ginv W {| e_obj := o; e_ext := e; e_pc := pc |} {| a_vers := vers; a_st := st |} ->
  W v = Some (b, s, x) -> e v = Some (PFinal s v) -> ginv W {| e_obj := upP o (PStage s v b) None; e_ext := e; e_pc := pc |} {| a_vers := vers; a_st := st |}.
Proof.
  intros A W o e pc vers st s v b x [[J1 [J2 [J3 J4]]] [I2 [I3 I4]]] E0 EE. cbn in *.
  split; [|split; [exact I2|split; [exact I3|]]]; cbn.
  - split; [exact J1|]. split; [|split].
    + intros w c sc z E. destruct (J2 _ _ _ _ E) as [[K1 K2]|[K1 K2]]; [left|right]; (split; [exact K1|]); [|up; exact K2].
      destruct (path_dec (PStage sc w c) (PStage s v b)) as [Q|Q]; [|up; exact K2]. injection Q as -> -> ->. congruence.
    + intros sc w z. up. apply J3.
    + intros w c sc z z' E. destruct (path_dec (PStage sc w c) (PStage s v b)) as [Q|Q]; [rewrite Q; up; discriminate|]. up. apply J4, E.
  - intros c. eapply rel_e_stable; [| | | |apply I4]; auto.
    intros w z sc E. destruct (path_dec (PStage sc w c) (PStage s v b)) as [Q|Q]; [|up; reflexivity]. injection Q as -> -> ->.
      pose proof (I3 _ _ _ _ E0) as P. rewrite E in P. destruct P.
Qed.
Lemma fin_err_rel : forall {A} W o e a w (st : status A) v x, (w = true -> st = SWon v x) -> rel_e W o e a (fin_err w) st.
Proof. intros A W o e a [] st v x H; cbn; [exists v, x; right; apply H; reflexivity|exact Logic.I]. Qed.
Lemma fin_ok_rel : forall {A} (W : N -> option (N * scheme * A)) o e a w (st : status A) v b s x, W v = Some (b, s, x) -> o (PFinal s v) = Some x -> (w = true -> st = SWon v x) -> rel_e W o e a (fin_ok w v s) st.
Proof. intros A W o e a [] st v b s x E O H; cbn; [exists v, x; apply H; reflexivity|exists b, s, x; auto]. Qed.
Lemma fin_past : forall {A} w v s, past (A := A) (fin_ok w v s) /\ past (A := A) (fin_err w).
Proof. intros A [] v s; split; exact Logic.I. Qed.

Theorem ext_simulates : forall A, simulates (ext_lts A false) (abs_lts A) sim_e.
Proof.
  intros A. split.
  - intros s [I1 [I2 I3]]. exists {| a_vers := fun _ => None; a_st := fun _ => SNone |}. split; [split; reflexivity|]. exists (fun _ => None). split; [|split; [reflexivity|split]]; cbn.
    + split; [intros; apply I2|]. split; [intros; discriminate|]. split; [|intros; discriminate]. intros s' v y E. rewrite I1 in E. discriminate.
    + intros; discriminate.
    + intros a. rewrite I3. reflexivity.
  - intros s lab s' [vers st] [W G] STEP. cbn [lstep ext_lts] in STEP. inversion STEP; subst; pose proof G as [[J1 [J2 [J3 J4]]] [I2 [I3 I4]]]; cbn [a_vers a_st e_obj e_ext e_pc] in *;
    try (match goal with RP : forall a, rel_e _ _ _ a (?f a) _, E : ?f ?a = _ |- _ => pose proof (RP a) as RA; rewrite E in RA end).
    + (* begin *) exists {| a_vers := vers; a_st := upN st a (SActive v x) |}. split; [|left; constructor; exact RA]. exists W. apply local_step; [exact G|reflexivity|]. rewrite H. intros [].
    + (* write *) exists {| a_vers := vers; a_st := st |}. split; [|right; auto]. exists W. apply local_tau; [|cbn; rewrite upP_eq; auto|rewrite H; intros []].
      apply stage_write; [exact G|rewrite H; intros []|congruence].
    + (* write error *) exists {| a_vers := vers; a_st := st |}. split; [|right; auto]. exists W. apply local_tau; [|cbn; eauto|rewrite H; intros []]. destruct b; [|exact G].
      apply stage_write; [exact G|rewrite H; intros []|congruence].
    + (* put *) destruct RA as [RA RO]. exists {| a_vers := upN vers v (Some x); a_st := upN st a (SWon v x) |}.
      assert (WN : W v = None). { destruct (W v) as [[[b sc] z]|] eqn:E; [|reflexivity]. destruct (J2 _ _ _ _ E) as [[K _]|[K _]]; congruence. }
      split; [|left; constructor; [exact RA|rewrite I2, WN; reflexivity]]. exists (upN W v (Some (a, s0, x))). split; [|split; [|split]]; cbn.
      * split; [|split; [|split]].
        -- intros w E. destruct (N.eq_dec w v) as [->|n]; up; [discriminate|apply J1, E].
        -- intros w b sc z E. destruct (N.eq_dec w v) as [->|n]; up; [|apply J2, E]. injection E as <- <- <-. left. auto.
        -- intros sc w z E. destruct (J3 _ _ _ E) as [b E']. destruct (N.eq_dec w v) as [->|n]; [congruence|]. up. exists b. exact E'.
        -- intros w b sc z z' E. destruct (N.eq_dec w v) as [->|n]; up; [|apply J4, E]. injection E as <- <- <-. congruence.
      * intros w. destruct (N.eq_dec w v) as [->|n]; up; [reflexivity|apply I2].
      * intros w b sc z E. destruct (N.eq_dec b a) as [->|n]; up; [exact Logic.I|]. destruct (N.eq_dec w v) as [->|n']; up; [congruence|]. eapply I3; exact E.
      * intros b. destruct (N.eq_dec b a) as [->|n]; up; [cbn; exists a, x; rewrite upN_eq; auto|]. eapply rel_e_stable; [| | | |apply I4]; auto.
        -- intros w z E. destruct (N.eq_dec w v) as [->|n']; [congruence|up; exact E].
        -- intros sc w E. destruct (N.eq_dec w v) as [->|n']; [congruence|up; exact E].
    + (* put error *) exists {| a_vers := vers; a_st := st |}. split; [|right; auto]. exists W. destruct RA as [RA RO]. apply local_tau; [exact G|exact RA|rewrite H; intros []].
    + (* put lost *) discriminate.
    + (* delete *) exists {| a_vers := vers; a_st := st |}. split; [|right; auto]. exists W. apply local_tau; [|cbn; eauto|rewrite H; intros []].
      apply stage_write; [exact G|rewrite H; intros []|congruence].
    + (* delete error *) exists {| a_vers := vers; a_st := st |}. split; [|right; auto]. exists W. apply local_tau; [|cbn; eauto|rewrite H; intros []]. destruct b; [|exact G].
      apply stage_write; [exact G|rewrite H; intros []|congruence].
    + (* copy *) exists {| a_vers := vers; a_st := st |}. split; [|right; auto]. exists W. destruct RA as [b [x [E1 [-> E3]]]]. assert (y = x) by (eapply J4; eassumption). subst y.
      apply local_tau; [eapply final_write; eassumption| |rewrite H; intros _; exact Logic.I]. cbn. exists b, x. rewrite upP_eq. auto.
    + (* copy missing *) exists {| a_vers := vers; a_st := st |}. split; [|right; auto]. exists W. destruct RA as [b [x [E1 [-> E3]]]].
      apply local_tau; [exact G| |intros _; apply fin_past]. eapply fin_ok_rel; [exact E1| |exact E3]. destruct (J2 _ _ _ _ E1) as [[_ K]|[_ K]]; [congruence|exact K].
    + (* copy error *) exists {| a_vers := vers; a_st := st |}. split; [|right; auto]. exists W. destruct RA as [b [x [E1 [-> E3]]]].
      apply local_tau; [exact G|eapply fin_err_rel; exact E3|intros _; apply (fin_past w v s0)].
    + (* copy lost *) exists {| a_vers := vers; a_st := st |}. split; [|right; auto]. exists W. destruct RA as [b [x [E1 [-> E3]]]]. assert (y = x) by (eapply J4; eassumption). subst y.
      apply local_tau; [eapply final_write; eassumption|eapply fin_err_rel; exact E3|intros _; apply (fin_past w v s0)].
    + (* flip *) exists {| a_vers := vers; a_st := st |}. split; [|right; auto]. exists W. destruct RA as [b [x [E1 [-> [E3 E4]]]]].
      apply local_tau; [eapply flip; eassumption| |rewrite H; intros _; exact Logic.I]. cbn. exists b, x. rewrite upN_eq. auto.
    + (* flip error *) exists {| a_vers := vers; a_st := st |}. split; [|right; auto]. exists W. destruct RA as [c [x [E1 [-> [E3 E4]]]]].
      apply local_tau; [|eapply fin_err_rel; exact E3|intros _; apply (fin_past w v s0)]. destruct b; [eapply flip; eassumption|exact G].
    + (* final delete *) exists {| a_vers := vers; a_st := st |}. split; [|right; auto]. exists W. destruct RA as [b [x [E1 [-> [E3 [E4 E5]]]]]].
      apply local_tau; [eapply stage_delete; eassumption| |intros _; apply fin_past]. eapply fin_ok_rel; [exact E1| |exact E3]. up. exact E4.
    + (* final delete error *) exists {| a_vers := vers; a_st := st |}. split; [|right; auto]. exists W. destruct RA as [c [x [E1 [-> [E3 [E4 E5]]]]]].
      apply local_tau; [|eapply fin_err_rel; exact E3|intros _; apply (fin_past w v s0)]. destruct b; [eapply stage_delete; eassumption|exact G].
    + (* return *) exists {| a_vers := vers; a_st := upN st a SDone |}. split; [|left; destruct r; cbn in RA; destruct RA as [v [x RA]]; econstructor; exact RA].
      exists W. apply local_step; [exact G|exact Logic.I|intros _; exact Logic.I].
    + (* crash *) exists {| a_vers := vers; a_st := st |}. split; [|right; auto]. exists W. apply local_tau; [exact G|exact Logic.I|intros _; exact Logic.I].
    + (* open *) exists {| a_vers := vers; a_st := st |}. split; [|right; auto]. exists W. apply local_tau; [exact G| |rewrite H; intros []].
      destruct (W v) as [[[b sc] x]|] eqn:E.
      * destruct (J2 _ _ _ _ E) as [[K1 K2]|[K1 K2]]; rewrite K1; cbn; [exists b, x; split; [exact E|split; [reflexivity|discriminate]]|exists b, sc, x; auto].
      * rewrite (J1 v E). exact Logic.I.
    + (* miss *) exists {| a_vers := vers; a_st := st |}. split; [|right; auto]. exists W. apply local_tau; [exact G| |intros _; destruct (o (PFinal V2 v)); exact Logic.I].
      destruct (o (PFinal V2 v)) as [x|] eqn:E; [|exact Logic.I]. destruct (J3 _ _ _ E) as [b E']. cbn. exists b, V2, x. auto.
    + (* miss1 *) exists {| a_vers := vers; a_st := st |}. split; [|right; auto]. exists W. apply local_tau; [exact G| |intros _; destruct (o (PFinal V1 v)); exact Logic.I].
      destruct (o (PFinal V1 v)) as [x|] eqn:E; [|exact Logic.I]. destruct (J3 _ _ _ E) as [b E']. cbn. exists b, V1, x. auto.
    + (* board *) exists {| a_vers := vers; a_st := st |}. split; [|right; auto]. exists W. pose proof RA as [c [sc [x [E1 [E2 E3]]]]].
      destruct b; [|apply local_tau; [exact G|exact RA|intros _; exact Logic.I]].
      specialize (H0 eq_refl). destruct (J2 _ _ _ _ E1) as [[K _]|[K _]]; congruence.
    + (* read *) destruct RA as [b [sc [z [E1 [-> E3]]]]]. exists {| a_vers := vers; a_st := st |}. split; [exists W; apply local_tau; [exact G|exact Logic.I|intros _; exact Logic.I]|].
      left. constructor. rewrite I2, E1. cbn. congruence.
    + (* read missing *) exists {| a_vers := vers; a_st := st |}. split; [|right; auto]. exists W. apply local_tau; [exact G|exact Logic.I|intros _; exact Logic.I].
    + (* latest *) exists {| a_vers := vers; a_st := st |}. split; [exists W; exact G|]. left. constructor. rewrite I2. destruct (W v) as [q|] eqn:E; [discriminate|]. rewrite (J1 v E) in H. contradiction.
    + (* latest by listing *) exists {| a_vers := vers; a_st := st |}. split; [exists W; exact G|]. left. constructor. rewrite I2. destruct (J3 _ _ _ H0) as [b ->]. discriminate.
Qed.

(* ---- C31: what a reachable state looks like ---- *)
(* reachable states of a system *)
Definition reachable {L} (H : lts L) (s : lst H) : Prop := exists s0 tr, linit H s0 /\ run H s0 tr s.
Lemma ext_inv : forall A s, reachable (ext_lts A false) s -> exists t W, ginv W s t /\ reachable (abs_lts A) t.
Proof.
  intros A s [s0 [tr [I X]]]. pose proof (ext_simulates A) as SIM. destruct (proj1 SIM s0 I) as [t0 [I0 R0]]. destruct (simulates_run _ _ _ SIM _ _ _ X t0 R0) as [t [Y [W G]]].
  exists t, W. split; [exact G|]. exists t0, tr. auto.
Qed.
(* the content that resolving version v ends with: the store's path, or the final path
   that finalizing would create *)
Definition recorded {A} (s : est A) (v : N) (x : A) : Prop :=
  exists p, e_ext s v = Some p /\ e_obj s p = Some x /\ match p with PFinal _ w => w = v | PStage _ w _ => w = v end.
(* every version recorded in the store has its contents, whatever crashed before *)
Theorem recorded_readable : forall A (s : est A) v, reachable (ext_lts A false) s -> e_ext s v <> None -> exists x, recorded s v x.
Proof.
  intros A s v R E. destruct (ext_inv A s R) as [t [W [[[J1 [J2 _]] _] _]]]. destruct (W v) as [[[a sc] x]|] eqn:EW; [|rewrite (J1 v EW) in E; contradiction].
  exists x. destruct (J2 _ _ _ _ EW) as [[K1 K2]|[K1 K2]]; eexists; split; try eassumption; split; auto.
Qed.
(* a resolved path always leads to the committed contents, and so does a reader
   half-way through finalizing *)
Theorem resolved_readable : forall A (s : est A) a v p, reachable (ext_lts A false) s -> e_pc s a = ERead v p -> exists x, e_obj s p = Some x /\ exists sc, p = PFinal sc v /\
  (forall x', recorded s v x' -> x' = x).
Proof.
  intros A s a v p R E. destruct (ext_inv A s R) as [t [W [[[J1 [J2 [J3 J4]]] [_ [_ I4]]] _]]]. specialize (I4 a). rewrite E in I4. destruct I4 as [b [sc [x [E1 [-> E3]]]]].
  exists x. split; [exact E3|]. exists sc. split; [reflexivity|]. intros x' [q [Q1 [Q2 _]]]. destruct (J2 _ _ _ _ E1) as [[K1 K2]|[K1 K2]]; congruence.
Qed.
(* one step keeps every recorded version with its contents: the latest version never
   goes backwards *)
Theorem recorded_stable : forall A (s : est A) l s' v x, reachable (ext_lts A false) s -> lstep (ext_lts A false) s l s' -> recorded s v x -> recorded s' v x.
Proof.
  intros A s l s' v x R ST [p [P1 [P2 P3]]]. pose proof (ext_inv A s R) as [t [W [G _]]]. destruct (proj2 (ext_simulates A) s l s' t (ex_intro _ W G) ST) as [t' [[W' G'] ST']].
  assert (V : a_vers t v = Some x). { destruct G as [[J1 [J2 _]] [I2 _]]. rewrite I2. destruct (W v) as [[[a sc] z]|] eqn:E; [|rewrite (J1 v E) in P1; discriminate]. cbn.
    destruct (J2 _ _ _ _ E) as [[K1 K2]|[K1 K2]]; congruence. }
  assert (V' : a_vers t' v = Some x).
  { destruct ST' as [S|[_ ->]]; [|exact V]. cbn in S. inversion S; subst; cbn in *; try exact V. destruct (N.eq_dec v v0) as [->|n]; [congruence|]. rewrite upN_neq by exact n. exact V. }
  destruct G' as [[J1 [J2 _]] [I2 _]]. rewrite I2 in V'. destruct (W' v) as [[[a sc] z]|] eqn:E; [|discriminate]. injection V' as ->.
  destruct (J2 _ _ _ _ E) as [[K1 K2]|[K1 K2]]; eexists; split; try eassumption; split; auto.
Qed.
Theorem latest_monotone : forall A (s : est A) l s' v, reachable (ext_lts A false) s -> lstep (ext_lts A false) s l s' -> e_ext s v <> None -> e_ext s' v <> None.
Proof. intros A s l s' v R ST E. destruct (recorded_readable A s v R E) as [x X]. destruct (recorded_stable A s l s' v x R ST X) as [p [P _]]. congruence. Qed.
