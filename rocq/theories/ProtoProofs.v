(* C29, C30: every handler refines the commit-if-absent register. *)
From Coq Require Import List NArith Bool Lia.
From Verif Require Import Lib NamingModel ProtoModel ProtoSpec.
Import ListNotations.
Local Open Scope N_scope.

Lemma upN_eq : forall {B} (f : N -> B) k b, upN f k b k = b.
Proof. intros. unfold upN. rewrite N.eqb_refl. reflexivity. Qed.
Lemma upN_neq : forall {B} (f : N -> B) k b j, j <> k -> upN f k b j = f j.
Proof. intros. unfold upN. destruct (N.eqb_spec j k); congruence. Qed.
Lemma scheme_eqb_eq : forall a b, scheme_eqb a b = true <-> a = b.
Proof. intros [] []; cbn; split; congruence. Qed.
Lemma path_eqb_eq : forall p q, path_eqb p q = true <-> p = q.
Proof.
  intros [s v|s v a] [s' v'|s' v' a']; cbn; rewrite ?andb_true_iff, ?scheme_eqb_eq, ?N.eqb_eq; split; intros H; try congruence.
  - destruct H; congruence.
  - injection H as -> ->. auto.
  - destruct H as [[-> ->] ->]. reflexivity.
  - injection H as -> -> ->. auto.
Qed.
Lemma upP_eq : forall {B} (f : path -> B) k b, upP f k b k = b.
Proof. intros. unfold upP. replace (path_eqb k k) with true by (symmetry; apply path_eqb_eq; reflexivity). reflexivity. Qed.
Lemma upP_neq : forall {B} (f : path -> B) k b j, j <> k -> upP f k b j = f j.
Proof. intros. unfold upP. destruct (path_eqb j k) eqn:E; [apply path_eqb_eq in E; contradiction|reflexivity]. Qed.
Definition path_dec (p q : path) : {p = q} + {p <> q}.
Proof. repeat decide equality. Defined.
Lemma upN_case : forall {B} (f : N -> B) k b j, (j = k /\ upN f k b j = b) \/ (j <> k /\ upN f k b j = f j).
Proof. intros. destruct (N.eq_dec j k) as [->|E]; [left; split; [reflexivity|apply upN_eq]|right; split; [exact E|apply upN_neq, E]]. Qed.
Lemma upP_case : forall {B} (f : path -> B) k b j, (j = k /\ upP f k b j = b) \/ (j <> k /\ upP f k b j = f j).
Proof. intros. destruct (path_dec j k) as [->|E]; [left; split; [reflexivity|apply upP_eq]|right; split; [exact E|apply upP_neq, E]]. Qed.

(* ---- simulation and traces ---- *)
Theorem simulates_run : forall {L} (H G : lts L) R, simulates H G R ->
  forall s tr s', run H s tr s' -> forall a, R s a -> exists a', run G a tr a' /\ R s' a'.
Proof.
  intros L H G R [_ SIM] s tr s' X. induction X as [s|s tr s1 s2 X IH ST|s tr s1 l s2 X IH ST]; intros a RA.
  - exists a. split; [constructor|exact RA].
  - destruct (IH a RA) as [a1 [RUN R1]]. destruct (SIM _ _ _ _ R1 ST) as [a2 [R2 [S|[_ ->]]]].
    + exists a2. split; [eapply run_tau; eassumption|exact R2].
    + exists a1. split; assumption.
  - destruct (IH a RA) as [a1 [RUN R1]]. destruct (SIM _ _ _ _ R1 ST) as [a2 [R2 [S|[C _]]]]; [|discriminate].
    exists a2. split; [eapply run_lab; eassumption|exact R2].
Qed.
(* the claims transfer along a simulation *)
Theorem simulates_traces : forall {A} (H G : lts (label A)) R, simulates H G R ->
  (one_winner G -> one_winner H) /\ (immutable G -> immutable H) /\ (reads_begun G -> reads_begun H).
Proof.
  intros A H G R SIM. pose proof SIM as [INI _].
  assert (T : forall s0 tr s, linit H s0 -> run H s0 tr s -> exists a0 a, linit G a0 /\ run G a0 tr a).
  { intros s0 tr s I X. destruct (INI s0 I) as [a0 [I0 R0]]. destruct (simulates_run H G R SIM _ _ _ X a0 R0) as [a [Y _]]. exists a0, a. auto. }
  repeat apply conj; intros C s0 tr s I X; destruct (T s0 tr s I X) as [a0 [a [I0 Y]]]; exact (C a0 tr a I0 Y).
Qed.

(* ---- the register meets the claims ---- *)
Definition abs_inv {A} (tr : list (label A)) (s : ast A) (W : N -> option N) : Prop :=
  (forall a, a_st s a = SNone -> forall v x, ~ In (LBegin a v x) tr) /\
  (forall a v x, a_st s a = SActive v x \/ a_st s a = SWon v x -> In (LBegin a v x) tr) /\
  (forall a v x w y, In (LBegin a v x) tr -> In (LBegin a w y) tr -> v = w /\ x = y) /\
  (forall v x, a_vers s v = Some x -> exists a, W v = Some a /\ In (LBegin a v x) tr) /\
  (forall a v x, a_st s a = SWon v x -> W v = Some a) /\
  (forall a, In (LRet a ROk) tr -> exists v x, In (LBegin a v x) tr /\ W v = Some a) /\
  (forall v y, In (LRead v y) tr -> a_vers s v = Some y).
Lemma In_snoc : forall {X} (x y : X) l, In x (l ++ [y]) <-> In x l \/ x = y.
Proof. intros. rewrite in_app_iff. cbn. split; intros [H|H]; auto. destruct H; [auto|contradiction]. Qed.
Lemma abs_invariant : forall {A} s0 tr s, linit (abs_lts A) s0 -> run (abs_lts A) s0 tr s -> exists W, abs_inv tr s W /\ (forall v, a_vers s v = None -> W v = None).
Proof.
  intros A s0 tr s INI X. induction X as [s|s tr s1 s2 X IH ST|s tr s1 l s2 X IH ST].
  - exists (fun _ => None). destruct INI as [I1 I2]. split; [|reflexivity]. cbn in *. repeat apply conj; cbn; intros; try tauto.
    + destruct H as [H|H]; rewrite I2 in H; discriminate.
    + rewrite I1 in H; discriminate.
    + rewrite I2 in H; discriminate.
  - specialize (IH INI). destruct IH as [W [(C1 & C2 & C3 & C4 & C5 & C6 & C7) C8]]. cbn in ST. inversion ST; subst; cbn [a_vers a_st] in *.
    exists (upN W v (Some a)). split; [|intros w; destruct (upN_case m v (Some x) w) as [[-> ->]|[n ->]]; [discriminate|rewrite upN_neq by exact n; apply C8]].
    repeat apply conj; cbn [a_vers a_st].
    + intros b E. destruct (upN_case st a (SWon v x) b) as [[-> E']|[n E']]; rewrite E' in E; [discriminate|apply C1, E].
    + intros b w y E. destruct (upN_case st a (SWon v x) b) as [[-> E']|[n E']]; rewrite E' in E; [|apply C2, E].
      destruct E as [E|E]; [discriminate|]. injection E as <- <-. apply C2. left. assumption.
    + exact C3.
    + intros w y E. destruct (upN_case m v (Some x) w) as [[-> E']|[n E']]; rewrite E' in E.
      * injection E as <-. exists a. rewrite upN_eq. split; [reflexivity|]. apply C2. left. assumption.
      * rewrite upN_neq by exact n. apply C4, E.
    + intros b w y E. destruct (upN_case st a (SWon v x) b) as [[-> E']|[n E']]; rewrite E' in E.
      * injection E as <- <-. apply upN_eq.
      * apply C5 in E. destruct (N.eq_dec w v) as [->|n']; [|rewrite upN_neq by exact n'; exact E]. rewrite (C8 v) in E by assumption. discriminate.
    + intros b E. destruct (C6 b E) as [w [y [B Wb]]]. exists w, y. split; [exact B|]. destruct (N.eq_dec w v) as [->|n']; [|rewrite upN_neq by exact n'; exact Wb]. rewrite (C8 v) in Wb by assumption. discriminate.
    + intros w y E. apply C7 in E. destruct (N.eq_dec w v) as [->|n']; [congruence|rewrite upN_neq by exact n'; exact E].
  - specialize (IH INI). destruct IH as [W [(C1 & C2 & C3 & C4 & C5 & C6 & C7) C8]]. exists W. cbn in ST.
    inversion ST; subst; cbn [a_vers a_st] in *; (split; [|exact C8]).
    + repeat apply conj; cbn [a_vers a_st].
      * intros b E w y J. destruct (upN_case st a (SActive v x) b) as [[-> E']|[n E']]; rewrite E' in E; [discriminate|]. apply In_snoc in J as [J|J]; [exact (C1 b E w y J)|injection J as -> _ _; contradiction].
      * intros b w y E. apply In_snoc. destruct (upN_case st a (SActive v x) b) as [[-> E']|[n E']]; rewrite E' in E; [|left; apply C2, E]. right. destruct E as [E|E]; [|discriminate]. injection E as -> ->. reflexivity.
      * intros b w y w' y' J J'. apply In_snoc in J, J'. destruct J as [J|J], J' as [J'|J'].
        -- exact (C3 b w y w' y' J J').
        -- injection J' as -> -> ->. exfalso. exact (C1 a ltac:(assumption) _ _ J).
        -- injection J as -> -> ->. exfalso. exact (C1 a ltac:(assumption) _ _ J').
        -- injection J as -> -> ->. injection J' as -> ->. auto.
      * intros w y E. destruct (C4 w y E) as [b [Wb B]]. exists b. split; [exact Wb|]. apply In_snoc. auto.
      * intros b w y E. destruct (upN_case st a (SActive v x) b) as [[-> E']|[n E']]; rewrite E' in E; [discriminate|apply (C5 b w y), E].
      * intros b J. apply In_snoc in J as [J|J]; [|discriminate]. destruct (C6 b J) as [w [y [B Wb]]]. exists w, y. split; [apply In_snoc; auto|exact Wb].
      * intros w y J. apply In_snoc in J as [J|J]; [exact (C7 w y J)|discriminate].
    + (* ok *) repeat apply conj; cbn [a_vers a_st].
      * intros b E w y J. apply In_snoc in J as [J|J]; [|discriminate]. destruct (upN_case st a SDone b) as [[-> E']|[n E']]; rewrite E' in E; [discriminate|exact (C1 b E w y J)].
      * intros b w y E. apply In_snoc. left. destruct (upN_case st a SDone b) as [[-> E']|[n E']]; rewrite E' in E; [destruct E; discriminate|apply C2, E].
      * intros b w y w' y' J J'. apply In_snoc in J, J'. destruct J as [J|J]; [|discriminate]. destruct J' as [J'|J']; [|discriminate]. exact (C3 b w y w' y' J J').
      * intros w y E. destruct (C4 w y E) as [b [Wb B]]. exists b. split; [exact Wb|]. apply In_snoc. auto.
      * intros b w y E. destruct (upN_case st a SDone b) as [[-> E']|[n E']]; rewrite E' in E; [discriminate|apply (C5 b w y), E].
      * intros b J. apply In_snoc in J as [J|J].
        -- destruct (C6 b J) as [w [y [B Wb]]]. exists w, y. split; [apply In_snoc; auto|exact Wb].
        -- injection J as ->. exists v, x. split; [apply In_snoc; left; apply C2; right; assumption|exact (C5 a v x ltac:(assumption))].
      * intros w y J. apply In_snoc in J as [J|J]; [exact (C7 w y J)|discriminate].
    + (* conflict *) repeat apply conj; cbn [a_vers a_st].
      * intros b E w y J. apply In_snoc in J as [J|J]; [|discriminate]. destruct (upN_case st a SDone b) as [[-> E']|[n E']]; rewrite E' in E; [discriminate|exact (C1 b E w y J)].
      * intros b w y E. apply In_snoc. left. destruct (upN_case st a SDone b) as [[-> E']|[n E']]; rewrite E' in E; [destruct E; discriminate|apply C2, E].
      * intros b w y w' y' J J'. apply In_snoc in J, J'. destruct J as [J|J]; [|discriminate]. destruct J' as [J'|J']; [|discriminate]. exact (C3 b w y w' y' J J').
      * intros w y E. destruct (C4 w y E) as [b [Wb B]]. exists b. split; [exact Wb|]. apply In_snoc. auto.
      * intros b w y E. destruct (upN_case st a SDone b) as [[-> E']|[n E']]; rewrite E' in E; [discriminate|apply (C5 b w y), E].
      * intros b J. apply In_snoc in J as [J|J]; [|discriminate]. destruct (C6 b J) as [w [y [B Wb]]]. exists w, y. split; [apply In_snoc; auto|exact Wb].
      * intros w y J. apply In_snoc in J as [J|J]; [exact (C7 w y J)|discriminate].
    + (* err *) repeat apply conj; cbn [a_vers a_st].
      * intros b E w y J. apply In_snoc in J as [J|J]; [|discriminate]. destruct (upN_case st a SDone b) as [[-> E']|[n E']]; rewrite E' in E; [discriminate|exact (C1 b E w y J)].
      * intros b w y E. apply In_snoc. left. destruct (upN_case st a SDone b) as [[-> E']|[n E']]; rewrite E' in E; [destruct E; discriminate|apply C2, E].
      * intros b w y w' y' J J'. apply In_snoc in J, J'. destruct J as [J|J]; [|discriminate]. destruct J' as [J'|J']; [|discriminate]. exact (C3 b w y w' y' J J').
      * intros w y E. destruct (C4 w y E) as [b [Wb B]]. exists b. split; [exact Wb|]. apply In_snoc. auto.
      * intros b w y E. destruct (upN_case st a SDone b) as [[-> E']|[n E']]; rewrite E' in E; [discriminate|apply (C5 b w y), E].
      * intros b J. apply In_snoc in J as [J|J]; [|discriminate]. destruct (C6 b J) as [w [y [B Wb]]]. exists w, y. split; [apply In_snoc; auto|exact Wb].
      * intros w y J. apply In_snoc in J as [J|J]; [exact (C7 w y J)|discriminate].
    + (* read *) repeat apply conj; cbn [a_vers a_st]; auto.
      * intros b E w y J. apply In_snoc in J as [J|J]; [exact (C1 b E w y J)|discriminate].
      * intros b w y E. apply In_snoc. left. apply C2, E.
      * intros b w y w' y' J J'. apply In_snoc in J, J'. destruct J as [J|J]; [|discriminate]. destruct J' as [J'|J']; [|discriminate]. exact (C3 b w y w' y' J J').
      * intros w y E. destruct (C4 w y E) as [b [Wb B]]. exists b. split; [exact Wb|]. apply In_snoc. auto.
      * intros b J. apply In_snoc in J as [J|J]; [|discriminate]. destruct (C6 b J) as [w [y [B Wb]]]. exists w, y. split; [apply In_snoc; auto|exact Wb].
      * intros w y J. apply In_snoc in J as [J|J]; [exact (C7 w y J)|injection J as -> ->; assumption].
    + (* latest *) repeat apply conj; cbn [a_vers a_st]; auto.
      * intros b E w y J. apply In_snoc in J as [J|J]; [exact (C1 b E w y J)|discriminate].
      * intros b w y E. apply In_snoc. left. apply C2, E.
      * intros b w y w' y' J J'. apply In_snoc in J, J'. destruct J as [J|J]; [|discriminate]. destruct J' as [J'|J']; [|discriminate]. exact (C3 b w y w' y' J J').
      * intros w y E. destruct (C4 w y E) as [b [Wb B]]. exists b. split; [exact Wb|]. apply In_snoc. auto.
      * intros b J. apply In_snoc in J as [J|J]; [|discriminate]. destruct (C6 b J) as [w [y [B Wb]]]. exists w, y. split; [apply In_snoc; auto|exact Wb].
      * intros w y J. apply In_snoc in J as [J|J]; [exact (C7 w y J)|discriminate].
Qed.
Theorem abs_one_winner : forall A, one_winner (abs_lts A) /\ immutable (abs_lts A) /\ reads_begun (abs_lts A).
Proof.
  intros A. split; [|split]; intros s0 tr s INI X; destruct (abs_invariant s0 tr s INI X) as [W [(C1 & C2 & C3 & C4 & C5 & C6 & C7) C8]].
  - split.
    + intros a b v x y Ba Bb Oa Ob. destruct (C6 a Oa) as [va [xa [Ba' Wa]]]. destruct (C6 b Ob) as [vb [xb [Bb' Wb]]].
      destruct (C3 _ _ _ _ _ Ba Ba') as [<- _]. destruct (C3 _ _ _ _ _ Bb Bb') as [<- _]. congruence.
    + intros a v x y Ba Oa J. destruct (C6 a Oa) as [va [xa [Ba' Wa]]]. destruct (C3 _ _ _ _ _ Ba Ba') as [<- _].
      destruct (C4 v y (C7 v y J)) as [b [Wb Bb]]. assert (b = a) by congruence. subst b. destruct (C3 _ _ _ _ _ Ba Bb) as [_ E]. auto.
  - intros v x y J J'. pose proof (C7 _ _ J). pose proof (C7 _ _ J'). congruence.
  - intros v x J. destruct (C4 v x (C7 v x J)) as [b [_ B]]. exists b. exact B.
Qed.

(* ---- RenameCommitHandler ---- *)
Definition rel_r {A} (S0 : scheme) (o : path -> option A) (a : N) (pc : rpc A) (st : status A) : Prop :=
  match pc with
  | RNone => st = SNone
  | R0 v x s => s = S0 /\ st = SActive v x
  | R1 v x s => s = S0 /\ st = SActive v x /\ o (PStage s v a) = Some x
  | RDel v x s => st = SActive v x
  | RRet v x ROk => st = SWon v x
  | RRet v x RConflict => st = SActive v x
  | RRet v x RErr => st = SActive v x \/ st = SWon v x
  | RDone => True
  end.
Definition sim_r {A} (S0 : scheme) (s : rst A) (t : ast A) : Prop :=
  (forall v, a_vers t v = r_obj s (PFinal S0 v)) /\ (forall s' v, r_obj s (PFinal s' v) <> None -> s' = S0) /\
  (forall a, rel_r S0 (r_obj s) a (r_pc s a) (a_st t a)).
Lemma rel_r_other : forall {A} S0 (o o' : path -> option A) a pc st, (forall s v, o' (PStage s v a) = o (PStage s v a)) -> rel_r S0 o a pc st -> rel_r S0 o' a pc st.
Proof. intros A S0 o o' a pc st E H. destruct pc as [|? ? ?|? ? ?|? ? ?|? ? []|]; cbn in *; auto. rewrite E. exact H. Qed.
Ltac up := repeat first [rewrite upN_eq in * | rewrite upP_eq in * | rewrite upN_neq in * by congruence | rewrite upP_neq in * by congruence].
Theorem rename_simulates : forall A S0, simulates (rename_lts A (fun s => s = S0)) (abs_lts A) (sim_r S0).
Proof.
  intros A S0. split.
  - intros s [I1 I2]. exists {| a_vers := fun _ => None; a_st := fun _ => SNone |}. split; [split; reflexivity|]. split; [|split]; cbn.
    + intros v. symmetry. apply I1.
    + intros s' v H. rewrite I1 in H. contradiction.
    + intros a. rewrite I2. reflexivity.
  - intros s l s' [vers st] [RV [RS RP]] STEP. cbn [lstep rename_lts] in STEP. inversion STEP; subst; cbn [a_vers a_st r_obj r_pc] in *.
    + (* begin *) exists {| a_vers := vers; a_st := upN st a (SActive v x) |}. split; [|left; constructor; specialize (RP a); rewrite H in RP; exact RP].
      split; [exact RV|]. split; [exact RS|]. intros b. cbn. destruct (N.eq_dec b a) as [->|n]; up; [cbn; auto|apply RP].
    + (* write *) exists {| a_vers := vers; a_st := st |}. split; [|right; auto]. pose proof (RP a) as RA. rewrite H in RA. destruct RA as [-> RA].
      split; [intros w; cbn; up; apply RV|]. split; [intros s' w; cbn; up; apply RS|]. intros b. cbn. destruct (N.eq_dec b a) as [->|n]; up; [cbn; rewrite upP_eq; auto|].
      eapply rel_r_other; [|apply RP]. intros. up. reflexivity.
    + (* write error *) exists {| a_vers := vers; a_st := st |}. split; [|right; auto]. pose proof (RP a) as RA. rewrite H in RA. destruct RA as [-> RA]. destruct b.
      * split; [intros w; cbn; up; apply RV|]. split; [intros s' w; cbn; up; apply RS|]. intros b. cbn. destruct (N.eq_dec b a) as [->|n]; up; [cbn; auto|].
        eapply rel_r_other; [|apply RP]. intros. up. reflexivity.
      * split; [exact RV|]. split; [exact RS|]. intros b. cbn. destruct (N.eq_dec b a) as [->|n]; up; [cbn; auto|apply RP].
    + (* rename *) pose proof (RP a) as RA. rewrite H in RA. destruct RA as [-> [RA RO]]. exists {| a_vers := upN vers v (Some x); a_st := upN st a (SWon v x) |}.
      split; [|left; constructor; [exact RA|rewrite RV; assumption]]. split; [|split]; cbn.
      * intros w. destruct (N.eq_dec w v) as [->|n]; up; [|rewrite RV; reflexivity]. congruence.
      * intros s' w. destruct (path_dec (PFinal s' w) (PFinal S0 v)) as [E|E]; [congruence|]. up. apply RS.
      * intros b. destruct (N.eq_dec b a) as [->|n]; up; [cbn; destruct lost; auto|]. eapply rel_r_other; [|apply RP]. intros. up. reflexivity.
    + (* exists *) exists {| a_vers := vers; a_st := st |}. split; [|right; auto]. pose proof (RP a) as RA. rewrite H in RA. destruct RA as [-> [RA RO]].
      split; [exact RV|]. split; [exact RS|]. intros b. cbn. destruct (N.eq_dec b a) as [->|n]; up; [cbn; auto|apply RP].
    + (* error *) exists {| a_vers := vers; a_st := st |}. split; [|right; auto]. pose proof (RP a) as RA. rewrite H in RA. destruct RA as [-> [RA RO]].
      split; [exact RV|]. split; [exact RS|]. intros b. cbn. destruct (N.eq_dec b a) as [->|n]; up; [cbn; auto|apply RP].
    + (* delete *) exists {| a_vers := vers; a_st := st |}. split; [|right; auto]. pose proof (RP a) as RA. rewrite H in RA. cbn in RA. destruct b.
      * split; [intros w; cbn; up; apply RV|]. split; [intros s' w; cbn; up; apply RS|]. intros b. cbn. destruct (N.eq_dec b a) as [->|n]; up; [cbn; auto|].
        eapply rel_r_other; [|apply RP]. intros. up. reflexivity.
      * split; [exact RV|]. split; [exact RS|]. intros b. cbn. destruct (N.eq_dec b a) as [->|n]; up; [cbn; auto|apply RP].
    + (* return *) exists {| a_vers := vers; a_st := upN st a SDone |}. pose proof (RP a) as RA. rewrite H in RA. split; [|left; destruct r; cbn in RA; econstructor; exact RA].
      split; [exact RV|]. split; [exact RS|]. intros b. cbn. destruct (N.eq_dec b a) as [->|n]; up; [exact Logic.I|apply RP].
    + (* crash *) exists {| a_vers := vers; a_st := st |}. split; [|right; auto].
      split; [exact RV|]. split; [exact RS|]. intros b. cbn. destruct (N.eq_dec b a) as [->|n]; up; [exact Logic.I|apply RP].
    + (* read *) exists {| a_vers := vers; a_st := st |}. assert (s0 = S0) by (apply (RS s0 v); congruence). subst s0. split; [split; [exact RV|split; [exact RS|exact RP]]|]. left. constructor. rewrite RV. assumption.
    + (* latest *) exists {| a_vers := vers; a_st := st |}. assert (s0 = S0) by (apply (RS s0 v); congruence). subst s0. split; [split; [exact RV|split; [exact RS|exact RP]]|]. left. constructor. rewrite RV. congruence.
Qed.

(* ---- CommitLock ---- *)
Definition rel_k {A} (S0 : scheme) (o : path -> option A) (l : N -> option N) (a : N) (pc : kpc A) (st : status A) : Prop :=
  match pc with
  | KNone => st = SNone
  | K0 v x s => s = S0 /\ st = SActive v x
  | K1 v x s => s = S0 /\ st = SActive v x /\ l v = Some a
  | K2 v x s => s = S0 /\ st = SActive v x /\ l v = Some a /\ o (PFinal S0 v) = None
  | KRel v x ROk | KRet v x ROk => st = SWon v x
  | KRel v x RConflict | KRet v x RConflict => st = SActive v x
  | KRel v x RErr | KRet v x RErr => st = SActive v x \/ st = SWon v x
  | KDone => True
  end.
Definition sim_k {A} (S0 : scheme) (s : kst A) (t : ast A) : Prop :=
  (forall v, a_vers t v = k_obj s (PFinal S0 v)) /\ (forall s' v, k_obj s (PFinal s' v) <> None -> s' = S0) /\
  (forall a, rel_k S0 (k_obj s) (k_lock s) a (k_pc s a) (a_st t a)).
Lemma free_other : forall l a b v, a <> b -> l v = Some b -> free l a v = Some b.
Proof. intros l a b v n E. unfold free. rewrite E. destruct (N.eqb_spec b a); congruence. Qed.
(* another process's step: locks held by a stay, free versions stay free *)
Lemma rel_k_other : forall {A} S0 (o o' : path -> option A) l l' a pc st,
  (forall v, l v = Some a -> l' v = Some a) -> (forall v, l v = Some a -> o (PFinal S0 v) = None -> o' (PFinal S0 v) = None) ->
  rel_k S0 o l a pc st -> rel_k S0 o' l' a pc st.
Proof. intros A S0 o o' l l' a pc st EL EO H. destruct pc as [|? ? ?|? ? ?|? ? ?|? ? []|? ? []|]; cbn in *; intuition. Qed.
Theorem lock_simulates : forall A S0, simulates (lock_lts A (fun s => s = S0) false) (abs_lts A) (sim_k S0).
Proof.
  intros A S0. split.
  - intros s [I1 [I2 I3]]. exists {| a_vers := fun _ => None; a_st := fun _ => SNone |}. split; [split; reflexivity|]. split; [|split]; cbn.
    + intros v. symmetry. apply I1.
    + intros s' v H. rewrite I1 in H. contradiction.
    + intros a. rewrite I3. reflexivity.
  - intros s lab s' [vers st] [RV [RS RP]] STEP. cbn [lstep lock_lts] in STEP. inversion STEP; subst; cbn [a_vers a_st k_obj k_lock k_pc] in *;
    try (match goal with RP : forall a, rel_k _ _ _ a (?f a) _, E : ?f ?a = _ |- _ => pose proof (RP a) as RA; rewrite E in RA end).
    + (* begin *) exists {| a_vers := vers; a_st := upN st a (SActive v x) |}. split; [|left; constructor; exact RA].
      split; [exact RV|]. split; [exact RS|]. intros b. cbn. destruct (N.eq_dec b a) as [->|n]; up; [cbn; auto|apply RP].
    + (* lock *) exists {| a_vers := vers; a_st := st |}. split; [|right; auto]. destruct RA as [-> RA].
      split; [exact RV|]. split; [exact RS|]. intros b. cbn. destruct (N.eq_dec b a) as [->|n]; up; [cbn; rewrite upN_eq; auto|].
      eapply rel_k_other; [| |apply RP]; [|auto]. intros w E. destruct (N.eq_dec w v) as [->|n']; [congruence|]. up. exact E.
    + (* lock error *) exists {| a_vers := vers; a_st := st |}. split; [|right; auto]. destruct RA as [-> RA].
      split; [exact RV|]. split; [exact RS|]. intros b. cbn. destruct (N.eq_dec b a) as [->|n]; up; [destruct r; cbn; auto; contradiction|apply RP].
    + (* head found *) exists {| a_vers := vers; a_st := st |}. split; [|right; auto]. destruct RA as [-> [RA RL]].
      split; [exact RV|]. split; [exact RS|]. intros b. cbn. destruct (N.eq_dec b a) as [->|n]; up; [cbn; auto|apply RP].
    + (* head none *) exists {| a_vers := vers; a_st := st |}. split; [|right; auto]. destruct RA as [-> [RA RL]].
      split; [exact RV|]. split; [exact RS|]. intros b. cbn. destruct (N.eq_dec b a) as [->|n]; up; [cbn; auto|apply RP].
    + (* head error *) exists {| a_vers := vers; a_st := st |}. split; [|right; auto]. destruct RA as [-> [RA RL]].
      split; [exact RV|]. split; [exact RS|]. intros b. cbn. destruct (N.eq_dec b a) as [->|n]; up; [cbn; auto|apply RP].
    + (* write *) destruct RA as [-> [RA [RL RO]]]. exists {| a_vers := upN vers v (Some x); a_st := upN st a (SWon v x) |}.
      split; [|left; constructor; [exact RA|rewrite RV; assumption]]. split; [|split]; cbn.
      * intros w. destruct (N.eq_dec w v) as [->|n]; up; [reflexivity|rewrite RV; reflexivity].
      * intros s' w. destruct (path_dec (PFinal s' w) (PFinal S0 v)) as [E|E]; [congruence|]. up. apply RS.
      * intros b. destruct (N.eq_dec b a) as [->|n]; up; [cbn; auto|]. eapply rel_k_other; [| |apply RP]; [auto|]. intros w E O. destruct (N.eq_dec w v) as [->|n']; [congruence|]. up. exact O.
    + (* write error *) destruct RA as [-> [RA [RL RO]]]. destruct b.
      * exists {| a_vers := upN vers v (Some x); a_st := upN st a (SWon v x) |}. split; [|left; constructor; [exact RA|rewrite RV; assumption]]. split; [|split]; cbn.
        -- intros w. destruct (N.eq_dec w v) as [->|n]; up; [reflexivity|rewrite RV; reflexivity].
        -- intros s' w. destruct (path_dec (PFinal s' w) (PFinal S0 v)) as [E|E]; [congruence|]. up. apply RS.
        -- intros b. destruct (N.eq_dec b a) as [->|n]; up; [cbn; auto|]. eapply rel_k_other; [| |apply RP]; [auto|]. intros w E O. destruct (N.eq_dec w v) as [->|n']; [congruence|]. up. exact O.
      * exists {| a_vers := vers; a_st := st |}. split; [|right; auto].
        split; [exact RV|]. split; [exact RS|]. intros b. cbn. destruct (N.eq_dec b a) as [->|n]; up; [cbn; auto|apply RP].
    + (* release *) exists {| a_vers := vers; a_st := st |}. split; [|right; auto].
      split; [exact RV|]. split; [exact RS|]. intros b. cbn. destruct (N.eq_dec b a) as [->|n]; up; [destruct r; cbn in *; auto|].
      eapply rel_k_other; [| |apply RP]; [|auto]. intros w E. apply free_other; congruence.
    + (* release error *) exists {| a_vers := vers; a_st := st |}. split; [|right; auto].
      split; [exact RV|]. split; [exact RS|]. intros b0. cbn. destruct (N.eq_dec b0 a) as [->|n]; up; [destruct r; cbn in *; auto|].
      eapply rel_k_other; [| |apply RP]; [|auto]. intros w E. destruct b; [apply free_other; congruence|exact E].
    + (* return *) exists {| a_vers := vers; a_st := upN st a SDone |}. split; [|left; destruct r; cbn in RA; econstructor; exact RA].
      split; [exact RV|]. split; [exact RS|]. intros b. cbn. destruct (N.eq_dec b a) as [->|n]; up; [exact Logic.I|apply RP].
    + (* crash *) exists {| a_vers := vers; a_st := st |}. split; [|right; auto].
      split; [exact RV|]. split; [exact RS|]. intros b. cbn. destruct (N.eq_dec b a) as [->|n]; up; [exact Logic.I|].
      eapply rel_k_other; [| |apply RP]; [|auto]. intros w E. apply free_other; congruence.
    + (* expire *) discriminate.
    + (* read *) exists {| a_vers := vers; a_st := st |}. assert (s0 = S0) by (apply (RS s0 v); congruence). subst s0. split; [split; [exact RV|split; [exact RS|exact RP]]|]. left. constructor. rewrite RV. assumption.
    + (* latest *) exists {| a_vers := vers; a_st := st |}. assert (s0 = S0) by (apply (RS s0 v); congruence). subst s0. split; [split; [exact RV|split; [exact RS|exact RP]]|]. left. constructor. rewrite RV. congruence.
Qed.
