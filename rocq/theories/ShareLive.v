(* No half of a shared stream sleeps forever, when the buffer has room for two or polls do not overlap (C136). *)
From Coq Require Import List Arith Bool Lia.
From Verif Require Import ShareModel ShareProofs.
Import ListNotations.
Local Open Scope nat_scope.

Section Live.
  Context {T : Type}.
  Notation st := (@st T).
  (* why a task sleeps: the stream inside will wake it, the half that polls will, or the semaphore will *)
  Definition reason (x : st) (s : side) : Prop :=
    (polling x = Some s /\ innerw x = Some s) \/ (polling x = Some (other s) /\ waker x = Some s) \/ sem x = FWait s.
  Definition liveE (e : option side) (cap : option nat) (x : st) : Prop :=
    (forall s, ph x s <> Gone) /\
    (forall p, polling x = Some p -> buffered x p = 0 /\
      (ph x p = Flight \/ ((ph x p = Run \/ (ph x p = Wait /\ innerw x = Some p)) /\ match cap with Some n => length (buf x) < n | None => True end))) /\
    (forall s, e <> Some s -> ph x s = Wait -> buffered x s = 0 /\ exhausted x = false /\ reason x s) /\
    (forall s, sem x = FWait s -> buffered x s = 0 /\ exists n, cap = Some n /\ length (buf x) = n /\ 0 < n).
  Definition live := liveE None.

  Lemma live_woke e cap x y : woke x y -> liveE e cap x -> liveE e cap y.
  Proof.
    intros (E1&E2&E3&E4&E5&E6&E7&E8&E9&E10&E11&W) (A&B&C&D). unfold liveE, reason. rewrite E2, E3, E4, E5, E6, E8, E10.
    split. { intros s Q. destruct (W s) as [Q1|[Q1 Q2]]; [apply (A s)|]; congruence. }
    split. { intros p Q. destruct (B p Q) as [B1 B2]. split; [exact B1|]. destruct (W p) as [->|[Q1 ->]]; [exact B2|]. destruct B2 as [B2|[_ B2]]; [congruence|]. right. auto. }
    split; [|exact D]. intros s Ne Q. apply C; [exact Ne|]. destruct (W s) as [Q1|[Q1 Q2]]; congruence.
  Qed.
  Lemma live_except s cap x : liveE (Some s) cap x -> ph x s <> Wait -> live cap x.
  Proof. intros (A&B&C&D) N. split; [exact A|]. split; [exact B|]. split; [|exact D]. intros s' _ Q. apply C; [|exact Q]. intros E; injection E as ->. auto. Qed.
  Lemma live_wake s cap x : liveE (Some s) cap x -> live cap (wake x s).
  Proof. intros L. eapply live_except; [eapply live_woke; [apply wake_woke|exact L]|apply wake_ph]. Qed.
  Lemma live_weaken e cap x : live cap x -> liveE e cap x.
  Proof. intros (A&B&C&D). split; [exact A|]. split; [exact B|]. split; [|exact D]. intros s _. apply C. discriminate. Qed.

  Lemma release_live cap x : live cap x -> live cap (release x).
  Proof.
    intros L. unfold release. destruct (permits x) as [k|]; [|exact L]. destruct (sem x) as [|w|] eqn:Es.
    - destruct L as (A&B&C&D). split; [exact A|]. split; [exact B|]. split; [|discriminate]. cbn. intros s Ne Q. destruct (C s Ne Q) as (C1&C2&C3). repeat split; auto. unfold reason in *; cbn in *. rewrite Es in C3. exact C3.
    - apply live_wake. destruct L as (A&B&C&D). split; [exact A|]. split; [exact B|]. split; [|discriminate]. cbn. intros s Ne Q. destruct (C s ltac:(discriminate) Q) as (C1&C2&C3). repeat split; auto. unfold reason in *; cbn in *. rewrite Es in C3. destruct C3 as [C3|[C3|C3]]; auto. congruence.
    - destruct L as (A&B&C&D). split; [exact A|]. split; [exact B|]. split; [|discriminate]. cbn. intros s Ne Q. destruct (C s Ne Q) as (C1&C2&C3). repeat split; auto. unfold reason in *; cbn in *. rewrite Es in C3. exact C3.
  Qed.

  Lemma eqb_true a b : side_eqb a b = true -> a = b.
  Proof. destruct a, b; cbn; congruence. Qed.
  Lemma eqb_false a b : side_eqb a b = false -> a = other b.
  Proof. destruct a, b; cbn; congruence. Qed.
  Lemma eqb_refl a : side_eqb a a = true.
  Proof. destruct a; reflexivity. Qed.
  Lemma other_ne a : other a <> a.
  Proof. destruct a; discriminate. Qed.

  (* the capacities for which nobody is forgotten *)
  Definition enough (cap : option nat) (par : bool) : Prop := match cap with None => True | Some n => 2 <= n \/ (n = 1 /\ par = false) end.

  Lemma poll_live items cap par x s y : enough cap par -> (par = true \/ forall s, ph x s <> Flight) -> safe items cap x -> live cap x -> ph x s = Run -> poll x s = Some y -> live cap y.
  Proof.
    intros En Al S0 L R P. unfold poll in P. destruct (0 <? buffered x s) eqn:Hb.
    - apply Nat.ltb_lt in Hb. injection P as <-. destruct S0 as (A0&B0&_&_&_&_&_&H0). destruct L as (A&B&C&D).
      destruct (buf x) as [|v rest] eqn:Eb; [cbn in B0; destruct s; lia|].
      unfold release. cbn [permits sem give]. cbn [tl].
      assert (Bo : forall p, polling x = Some p -> set (buffered x) s (buffered x s - 1) p = 0) by (intros p Q; destruct (B p Q) as [B1 _]; unfold set; destruct (side_eqb p s) eqn:E1; [apply eqb_true in E1; subst; lia|exact B1]).
      assert (Bl : forall p, polling x = Some p -> ph x p = Flight \/ ((ph x p = Run \/ (ph x p = Wait /\ innerw x = Some p)) /\ match cap with Some n => length rest < n | None => True end)).
      { intros p Q. destruct (B p Q) as [_ [B2|[B2 B3]]]; [auto|]. right. split; [exact B2|]. destruct cap; [cbn in B3; lia|exact I]. }
      assert (Cl : forall s', ph x s' = Wait -> set (buffered x) s (buffered x s - 1) s' = 0 /\ exhausted x = false /\ reason x s').
      { intros s' Q. destruct (C s' ltac:(discriminate) Q) as (C1&C2&C3). repeat split; auto. unfold set. destruct (side_eqb s' s) eqn:E1; [apply eqb_true in E1; subst; lia|exact C1]. }
      destruct (permits x) as [k|] eqn:Ep.
      + destruct (sem x) as [|w|] eqn:Es.
        * split; [exact A|]. split; [cbn; auto|]. split; [|discriminate]. cbn. intros s' _ Q. destruct (Cl s' Q) as (C1&C2&C3). repeat split; auto. unfold reason in *; cbn in *. rewrite Es in C3. exact C3.
        * apply live_wake. split; [exact A|]. split; [cbn; auto|]. split; [|discriminate]. cbn. intros s' Ne Q. destruct (Cl s' Q) as (C1&C2&C3). repeat split; auto. unfold reason in *; cbn in *. rewrite Es in C3. destruct C3 as [C3|[C3|C3]]; auto. congruence.
        * split; [exact A|]. split; [cbn; auto|]. split; [|discriminate]. cbn. intros s' _ Q. destruct (Cl s' Q) as (C1&C2&C3). repeat split; auto. unfold reason in *; cbn in *. rewrite Es in C3. exact C3.
      + split; [exact A|]. split; [cbn; auto|]. split. { cbn. intros s' _ Q. exact (Cl s' Q). } cbn. intros s' Q. exfalso. destruct (D s' Q) as [_ (n&->&_)]. exact H0.
    - apply Nat.ltb_ge in Hb. assert (Hb' : buffered x s = 0) by lia. clear Hb. destruct (exhausted x) eqn:Ex.
      { injection P as <-. destruct L as (A&B&C&D). destruct S0 as (_&_&_&_&_&F&_). destruct (F Ex) as [_ Fp]. split. { cbn. unfold set. intros s'. destruct (side_eqb s' s); [discriminate|apply A]. }
        split; [cbn; congruence|]. split; [|exact D]. cbn. intros s' Ne Q. unfold set in Q. destruct (side_eqb s' s); [discriminate|]. destruct (C s' Ne Q) as (_&C2&_). congruence. }
      destruct (acquire x s) as [got x1] eqn:Ea. destruct got; cbn in P.
      2: { injection P as <-. unfold acquire in Ea. destruct (permits x) as [k|] eqn:Ep; [|discriminate].
        destruct S0 as (A0&B0&_&D0&E0&_&_&H0). destruct cap as [n|]; [|rewrite Ep in H0; contradiction]. rewrite Ep in H0. destruct H0 as [H1 H2]. destruct L as (A&B&C&D).
        (* nothing is in flight *)
        assert (K : x1 = with_sem x (Some k) (FWait s) /\ length (buf x) = n /\ taken x = false /\ 0 < n).
        { destruct (sem x) as [|w|] eqn:Es; [| |discriminate].
          - destruct k; [|discriminate]. injection Ea as <-. split; [reflexivity|].
            assert (Hn : 0 < n) by (destruct En as [?|[? ?]]; lia).
            assert (Ht : taken x = false).
            { destruct (taken x) eqn:Et; [|reflexivity]. exfalso. destruct (E0 eq_refl) as [s' Q]. destruct En as [En|[_ ->]].
              - destruct (D0 s' Q) as (_&_&Q3&_). destruct (side_eqb s' s) eqn:E1; [apply eqb_true in E1; congruence|]. apply eqb_false in E1. subst s'. destruct s; cbn in *; lia.
              - destruct Al as [Al|Al]; [discriminate|]. exact (Al s' Q). }
            rewrite Ht in H1. repeat split; auto; lia.
          - injection Ea as <-. destruct (D w eq_refl) as [_ (n'&N1&N2&N3)]. injection N1 as <-. repeat split; auto. destruct (taken x); [lia|reflexivity]. }
        destruct K as (->&K1&K2&K3). clear Ea.
        assert (Po : polling x = None).
        { destruct (polling x) as [p|] eqn:Epo; [|reflexivity]. exfalso. destruct (B p eq_refl) as [_ [B2|[_ B2]]]; [|lia]. destruct (D0 p B2) as (_&D2&_). congruence. }
        split. { cbn. unfold set. intros s'. destruct (side_eqb s' s); [discriminate|apply A]. }
        split; [cbn; congruence|]. split.
        - cbn. intros s' _ Q. unfold set in Q. destruct (side_eqb s' s) eqn:E1.
          + apply eqb_true in E1. subst s'. repeat split; auto. right. right. reflexivity.
          + destruct (C s' ltac:(discriminate) Q) as (C1&C2&[[C3 _]|[[C3 _]|C3]]); [congruence|congruence|]. apply eqb_false in E1. subst s'. exfalso. destruct s; cbn in *; lia.
        - cbn. intros s' Q. injection Q as <-. split; [exact Hb'|]. exists n. auto. }
      assert (E1 : exists k f, x1 = with_sem x k f /\ (forall w, f <> FWait w) /\ (forall w, sem x <> FWait w)).
      { unfold acquire in Ea. destruct (permits x) as [k|] eqn:Ep.
        - destruct (sem x) eqn:Es; [destruct k; [discriminate|]|discriminate|]; injection Ea as <-; eexists _, _; (split; [reflexivity|]); split; congruence.
        - injection Ea as <-. exists (permits x), (sem x). split; [destruct x; reflexivity|]. assert (Q : forall w, sem x <> FWait w). { intros w Q. destruct L as (_&_&_&D). destruct (D w Q) as [_ (n&->&_)]. destruct S0 as (_&_&_&_&_&_&_&H0). rewrite Ep in H0. exact H0. } auto. }
      destruct E1 as (k&f&->&Nf&Nx). clear Ea. cbn in P.
      destruct (match polling x with Some p => negb (side_eqb p s) | None => false end) eqn:Eq.
      { injection P as <-. apply release_live. destruct (polling x) as [p|] eqn:Epo; [|discriminate]. apply negb_true_iff, eqb_false in Eq. subst p. destruct L as (A&B&C&D).
        split. { cbn. unfold set. intros s'. destruct (side_eqb s' s); [discriminate|apply A]. }
        split. { cbn. intros p Q. injection Q as <-. unfold set. destruct (side_eqb (other s) s) eqn:E1; [apply eqb_true in E1; destruct (other_ne _ E1)|]. apply B, Epo. }
        split; [|cbn; intros w Q; destruct (Nf w Q)]. cbn. intros s' _ Q. unfold set in Q. destruct (side_eqb s' s) eqn:E1.
        - apply eqb_true in E1. subst s'. repeat split; auto. right. left. cbn. auto.
        - apply eqb_false in E1. subst s'. destruct (C _ ltac:(discriminate) Q) as (C1&C2&C3). repeat split; auto. destruct C3 as [C3|[[C3 _]|C3]]; [left; cbn; destruct C3; auto| |destruct (Nx _ C3)]. rewrite Epo in C3. injection C3 as C3. destruct s; discriminate. }
      destruct (taken x) eqn:Et; [discriminate|]. injection P as <-. destruct L as (A&B&C&D).
      split. { cbn. unfold set. intros s'. destruct (side_eqb s' s); [discriminate|apply A]. }
      split. { cbn. intros p Q. injection Q as <-. split; [exact Hb'|]. left. unfold set. rewrite eqb_refl. reflexivity. }
      split; [|cbn; intros w Q; destruct (Nf w Q)]. cbn. intros s' _ Q. unfold set in Q. destruct (side_eqb s' s) eqn:E1; [discriminate|]. apply eqb_false in E1. subst s'.
      destruct (C _ ltac:(discriminate) Q) as (C1&C2&C3). repeat split; auto. destruct C3 as [[C3 _]|[[C3 C4]|C3]]; [| |destruct (Nx _ C3)].
      + rewrite C3 in Eq. destruct s; discriminate.
      + right. left. cbn. split; [|exact C4]. destruct s; reflexivity.
  Qed.

  Lemma finish_live items cap x s pend : safe items cap x -> live cap x -> ph x s = Flight -> live cap (finish x s pend).
  Proof.
    intros S0 L P. destruct S0 as (A0&B0&_&D0&E0&F0&G0&H0). destruct (D0 s P) as (P1&P2&P3&P4). destruct L as (A&B&C&D).
    (* nobody waits for the semaphore *)
    assert (Nx : forall w, sem x <> FWait w).
    { intros w Q. destruct (D w Q) as [_ (n&->&N2&N3)]. destruct (permits x) as [k|]; [|exact H0]. destruct H0 as [H1 H2]. rewrite P2 in H1. lia. }
    assert (Oth : forall s', ph x s' = Wait -> s' = other s /\ waker x = Some s' /\ buffered x s' = 0).
    { intros s' Q. destruct (side_eqb s' s) eqn:E1; [apply eqb_true in E1; congruence|]. apply eqb_false in E1. subst s'. destruct (C _ ltac:(discriminate) Q) as (C1&C2&C3). split; [reflexivity|]. split; [|exact C1].
      destruct C3 as [[C3 _]|[[_ C3]|C3]]; [rewrite P1 in C3; destruct s; discriminate|exact C3|destruct (Nx _ C3)]. }
    unfold finish. destruct pend.
    - assert (Hs : live cap {| src := src x; buf := buf x; polling := polling x; waker := waker x; exhausted := exhausted x; buffered := buffered x;
          permits := match permits x with None => None | Some k => Some (S k) end; sem := sem x;
          taken := false; innerw := Some s; ph := set (ph x) s (if woken x s then Run else Wait); woken := woken x; out := out x |}).
      { split. { cbn. unfold set. intros s'. destruct (side_eqb s' s); [destruct (woken x s); discriminate|apply A]. }
        split. { cbn. rewrite P1. intros p Q. injection Q as <-. split; [exact P3|]. right. unfold set. rewrite eqb_refl. split; [destruct (woken x s); auto|].
          destruct cap as [n|]; [|exact I]. destruct (permits x) as [k|]; [|contradiction]. destruct H0 as [H1 _]. rewrite P2 in H1. lia. }
        split; [|cbn; intros w Q; destruct (Nx w Q)]. cbn. intros s' _ Q. unfold set in Q. destruct (side_eqb s' s) eqn:E1.
        - apply eqb_true in E1. subst s'. repeat split; auto. left. cbn. auto.
        - destruct (Oth s' Q) as (->&O2&O3). repeat split; auto. right. left. cbn. split; [|exact O2]. rewrite P1. destruct s; reflexivity. }
      unfold release. cbn. destruct (permits x) as [k|]; [|exact Hs]. destruct (sem x) as [|w|] eqn:Es; [exact Hs|destruct (Nx w eq_refl)|exact Hs].
    - destruct (src x) as [|v rest] eqn:Esrc.
      + apply release_live. unfold wake_other. cbn [waker with_ph].
        assert (K : forall w, liveE w cap {| src := []; buf := buf x; polling := None; waker := None; exhausted := true; buffered := buffered x; permits := permits x; sem := sem x; taken := false; innerw := None; ph := set (ph x) s Fin; woken := woken x; out := out x |} <-> forall s', w <> Some s' -> ph x s' <> Wait).
        { intros w. split.
          - intros (_&_&K&_) s' Ne Q. cbn in K. destruct (K s' Ne) as (_&K2&_); [|discriminate]. unfold set. destruct (side_eqb s' s) eqn:E1; [apply eqb_true in E1; congruence|exact Q].
          - intros K. split. { cbn. unfold set. intros s'. destruct (side_eqb s' s); [discriminate|apply A]. } split; [discriminate|]. split; [|cbn; intros w' Q; destruct (Nx w' Q)].
            cbn. intros s' Ne Q. unfold set in Q. destruct (side_eqb s' s); [discriminate|]. destruct (K s' Ne Q). }
        destruct (waker x) as [w|] eqn:Ew.
        * apply live_wake. apply K. intros s' Ne Q. destruct (Oth s' Q) as (_&O2&_). congruence.
        * apply K. intros s' _ Q. destruct (Oth s' Q) as (_&O2&_). congruence.
      + unfold wake_other. cbn [waker with_ph give].
        assert (K : forall w, (forall s', w <> Some s' -> ph x s' <> Wait) -> liveE w cap {| src := rest; buf := buf x ++ [v]; polling := None; waker := None; exhausted := exhausted x;
          buffered := set (buffered x) (other s) (S (buffered x (other s))); permits := permits x; sem := sem x; taken := false; innerw := None; ph := set (ph x) s Run; woken := woken x; out := set (out x) s (out x s ++ [v]) |}).
        { intros w K. split. { cbn. unfold set. intros s'. destruct (side_eqb s' s); [discriminate|apply A]. } split; [discriminate|]. split; [|cbn; intros w' Q; destruct (Nx w' Q)].
            cbn. intros s' Ne Q. unfold set in Q. destruct (side_eqb s' s); [discriminate|]. destruct (K s' Ne Q). }
        destruct (waker x) as [w|] eqn:Ew.
        * apply live_wake. apply K. intros s' Ne Q. destruct (Oth s' Q) as (_&O2&_). congruence.
        * apply K. intros s' _ Q. destruct (Oth s' Q) as (_&O2&_). congruence.
  Qed.
  Lemma step_live items cap par x l y : enough cap par -> allowed false par x l -> safe items cap x -> live cap x -> step x l = Some (Some y) -> live cap y.
  Proof.
    intros En Al S0 L P. destruct l as [s|s pend| |s|s]; cbn in P.
    - destruct (is (ph x s) Run) eqn:E; [|discriminate]. injection P as P. eapply poll_live; eauto using is_eq.
    - destruct (is (ph x s) Flight) eqn:E; [|discriminate]. injection P as <-. eapply finish_live; eauto using is_eq.
    - destruct (innerw x) as [s|] eqn:Ei; [|discriminate]. injection P as <-. destruct L as (A&B&C&D).
      unfold wake. cbn [ph].
      assert (Cl : forall s', s' <> s -> ph x s' = Wait -> buffered x s' = 0 /\ exhausted x = false /\ ((polling x = Some (other s') /\ waker x = Some s') \/ sem x = FWait s')).
      { intros s' Ne Q. destruct (C s' ltac:(discriminate) Q) as (C1&C2&[[_ C3]|C3]); [congruence|]. auto. }
      destruct (ph x s) eqn:Ep.
      all: split; [cbn; unfold set; intros s'; try (destruct (side_eqb s' s); [discriminate|]); apply A|].
      all: split; [cbn; intros p Q; destruct (B p Q) as [B1 B2]; split; [exact B1|]; unfold set; destruct (side_eqb p s) eqn:E1;
           [apply eqb_true in E1; subst p; rewrite ?Ep in *; destruct B2 as [B2|[[B2|[B2 _]] B3]]; try discriminate; auto
           |destruct B2 as [B2|[[B2|[B2 B4]] B3]]; auto; apply eqb_false in E1; subst p; rewrite Ei in B4; injection B4 as B4; destruct (other_ne _ (eq_sym B4))]|].
      all: split; [cbn; intros s' _ Q; unfold set in Q; destruct (side_eqb s' s) eqn:E1;
           [apply eqb_true in E1; congruence|destruct (Cl s') as (C1&C2&C3); [intros ->; rewrite eqb_refl in E1; discriminate|exact Q|]; repeat split; auto; right; exact C3]|exact D].
    - destruct (is (ph x s) Wait) eqn:E; [|discriminate]. apply is_eq in E. injection P as <-. destruct L as (A&B&C&D).
      split. { cbn. unfold set. intros s'. destruct (side_eqb s' s); [discriminate|apply A]. }
      split. { cbn. intros p Q. destruct (B p Q) as [B1 B2]. split; [exact B1|]. unfold set. destruct (side_eqb p s) eqn:E1; [|exact B2]. apply eqb_true in E1. subst p. destruct B2 as [B2|[_ B2]]; [congruence|auto]. }
      split; [|exact D]. cbn. intros s' Ne Q. unfold set in Q. destruct (side_eqb s' s); [discriminate|]. exact (C s' Ne Q).
    - discriminate.
  Qed.
  Lemma start_live items cap : live cap (start items cap).
  Proof. repeat split; cbn; try discriminate. Qed.
  Lemma reach_live par items cap x : enough cap par -> reach false par items cap x -> safe items cap x /\ live cap x.
  Proof.
    intros En. induction 1 as [|x l y R IH Al P]; [split; [apply start_safe|apply start_live]|]. destruct IH as [I1 I2]. split; [eauto using step_safe|eauto using step_live].
  Qed.
End Live.
