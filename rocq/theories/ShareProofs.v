(* What is always true of the two halves of a shared stream (C136). *)
From Coq Require Import List Arith Bool Lia.
From Verif Require Import ShareModel.
Import ListNotations.
Local Open Scope nat_scope.

Section Share.
  Context {T : Type}.
  Notation st := (@st T).
  (* what may happen: with drop, a half may be dropped; with par, the halves are polled by two threads, otherwise one poll ends before
     the other begins *)
  Definition allowed (drop par : bool) (x : st) (l : label) : Prop :=
    match l with LDrop _ => drop = true | LPoll _ => par = true \/ forall s, ph x s <> Flight | _ => True end.
  Inductive reach (drop par : bool) (items : list T) (cap : option nat) : st -> Prop :=
  | reach_start : reach drop par items cap (start items cap)
  | reach_step x l y : reach drop par items cap x -> allowed drop par x l -> step x l = Some (Some y) -> reach drop par items cap y.

  Definition safe (items : list T) (cap : option nat) (x : st) : Prop :=
    (buffered x Left = 0 \/ buffered x Right = 0) /\
    length (buf x) = buffered x Left + buffered x Right /\
    (exists t, items = t ++ src x /\ (forall s, out x s ++ (if 0 <? buffered x s then buf x else []) = t)) /\
    (forall s, ph x s = Flight -> polling x = Some s /\ taken x = true /\ buffered x s = 0 /\ exhausted x = false) /\
    (taken x = true -> exists s, ph x s = Flight) /\
    (exhausted x = true -> src x = [] /\ polling x = None) /\
    (forall s, ph x s = Fin -> exhausted x = true /\ buffered x s = 0) /\
    match cap, permits x with
    | None, None => True
    | Some n, Some k => k + (match sem x with FReady => 1 | _ => 0 end) + length (buf x) + (if taken x then 1 else 0) = n /\ (forall s, sem x = FWait s -> k = 0)
    | _, _ => False
    end.

  (* the fields that waking does not change *)
  Definition woke (x y : st) : Prop :=
    src y = src x /\ buf y = buf x /\ polling y = polling x /\ waker y = waker x /\ exhausted y = exhausted x /\ buffered y = buffered x /\ permits y = permits x /\ sem y = sem x /\
    taken y = taken x /\ innerw y = innerw x /\ out y = out x /\ (forall s, ph y s = ph x s \/ (ph x s = Wait /\ ph y s = Run)).
  Lemma wake_woke (x : st) s : woke x (wake x s).
  Proof. unfold wake. destruct (ph x s) eqn:E; repeat split; cbn; auto. intros []; destruct s; cbn; auto. Qed.
  Lemma wake_ph (x : st) s : ph (wake x s) s <> Wait.
  Proof. unfold wake. destruct (ph x s) eqn:E; cbn; try congruence. unfold set. destruct s; cbn; congruence. Qed.
  Lemma safe_woke items cap (x y : st) : woke x y -> safe items cap x -> safe items cap y.
  Proof.
    intros (E1&E2&E3&E4&E5&E6&E7&E8&E9&E10&E11&W) (A&B&C&D&E&F&G&H). unfold safe. rewrite E1, E2, E3, E5, E6, E7, E8, E9, E11.
    split; [exact A|]. split; [exact B|]. split; [exact C|]. split.
    { intros s P. apply D. destruct (W s) as [Q|[Q1 Q2]]; congruence. }
    split. { intros P. destruct (E P) as [s Q]. exists s. destruct (W s) as [Q1|[Q1 Q2]]; congruence. }
    split; [exact F|]. split; [|exact H]. intros s P. apply G. destruct (W s) as [Q|[Q1 Q2]]; congruence.
  Qed.

  Ltac two := repeat match goal with |- forall s : side, _ => intros [] end.
  (* releasing a permit, without the waking *)
  Definition bump (x : st) : st :=
    match permits x with None => x | Some k => match sem x with FWait s => with_sem x (Some k) FReady | f => with_sem x (Some (S k)) f end end.
  Lemma release_woke x : woke (bump x) (release x).
  Proof.
    unfold bump, release. destruct (permits x) as [k|]; [destruct (sem x)|]; try apply wake_woke; repeat split; auto.
  Qed.
  Lemma release_safe items cap x : safe items cap (bump x) -> safe items cap (release x).
  Proof. apply safe_woke, release_woke. Qed.
  Definition clear (x : st) : st :=
    {| src := src x; buf := buf x; polling := polling x; waker := None; exhausted := exhausted x; buffered := buffered x; permits := permits x; sem := sem x;
       taken := taken x; innerw := innerw x; ph := ph x; woken := woken x; out := out x |}.
  Lemma wake_other_safe items cap x : safe items cap (clear x) -> safe items cap (wake_other x).
  Proof.
    intros H. unfold wake_other. destruct (waker x) as [w|] eqn:E.
    - eapply safe_woke; [apply wake_woke|exact H].
    - destruct x; cbn in *. subst. exact H.
  Qed.
  (* wake_other and bump do not interfere *)
  Lemma wake_other_woke x : woke (clear x) (wake_other x).
  Proof. unfold wake_other. destruct (waker x) as [w|] eqn:E; [apply wake_woke|]. repeat split; cbn; auto. Qed.
  Lemma bump_woke x y : woke x y -> woke (bump x) (bump y).
  Proof.
    intros (E1&E2&E3&E4&E5&E6&E7&E8&E9&E10&E11&W). unfold bump. rewrite E7, E8. destruct (permits x) eqn:Ep; [destruct (sem x)|]; repeat split; cbn; auto; congruence.
  Qed.

  Lemma start_safe items cap : safe items cap (start items cap).
  Proof.
    unfold safe, start; cbn. repeat split; auto; try discriminate.
    - exists []. split; [reflexivity|]. intros s. reflexivity.
    - destruct cap; [split; [lia|discriminate]|exact I].
  Qed.


  Ltac both H := let a := fresh H "L" in let b := fresh H "R" in pose proof (H Left) as a; pose proof (H Right) as b; cbn in a, b.
  Ltac fin := first [ reflexivity | assumption | discriminate | congruence | lia | (left; congruence) | (right; congruence) ].
  Ltac prep x :=
    match goal with C2 : forall s, out x s ++ _ = _, D : forall s, ph x s = Flight -> _, G : forall s, ph x s = Fin -> _ |- _ =>
      destruct x as [src0 buf0 polling0 waker0 exhausted0 buffered0 permits0 sem0 taken0 innerw0 ph0 woken0 out0]; cbn in *; try subst exhausted0; try subst taken0; try subst permits0; cbn in *;
      both C2; both D; both G end.
  Lemma ltb_0 a : (0 <? a) = match a with 0 => false | _ => true end.
  Proof. destruct a; reflexivity. Qed.

  Lemma poll_safe items cap x s y : safe items cap x -> ph x s = Run -> poll x s = Some y -> safe items cap y.
  Proof.
    intros (A&B&(t&C1&C2)&D&E&F&G&H) R P. unfold poll in P.
    destruct (0 <? buffered x s) eqn:Hb.
    - apply Nat.ltb_lt in Hb. injection P as <-. apply release_safe.
      prep x.
      destruct buf0 as [|v buf0]; cbn in *; [destruct s; lia|].
      assert (Hs : safe items cap {| src := src0; buf := buf0; polling := polling0; waker := waker0; exhausted := exhausted0; buffered := set buffered0 s (buffered0 s - 1);
        permits := match permits0 with None => None | Some k => match sem0 with FWait _ => Some k | _ => Some (S k) end end; 
        sem := match permits0 with None => sem0 | Some k => match sem0 with FWait _ => FReady | f => f end end; taken := taken0; innerw := innerw0; ph := ph0; woken := woken0; out := set out0 s (out0 s ++ [v]) |}).
      { unfold safe; cbn. split; [destruct s; cbn; lia|]. split; [destruct s; cbn; lia|]. split.
        { exists t. split; [exact C1|]. destruct s; intros []; unfold set; cbn; rewrite ?ltb_0.
          - destruct (buffered0 Left) as [|[|k]]; [lia| |]; cbn; rewrite <- app_assoc; cbn; [|exact C2L]. destruct buf0; [exact C2L|cbn in B; lia].
          - destruct (buffered0 Left); [lia|]. destruct (buffered0 Right); [exact C2R|lia].
          - destruct (buffered0 Right); [lia|]. destruct (buffered0 Left); [exact C2L|lia].
          - destruct (buffered0 Right) as [|[|k]]; [lia| |]; cbn; rewrite <- app_assoc; cbn; [|exact C2R]. destruct buf0; [exact C2R|cbn in B; lia]. }
        split. { intros s' Q. destruct (D s' Q) as (D1&D2&D3&D4). repeat split; auto. destruct s', s; cbn in *; lia. }
        split; [exact E|]. split; [exact F|]. split. { intros s' Q. destruct (G s' Q). split; auto. destruct s', s; cbn in *; lia. }
        destruct cap as [n|], permits0 as [k|]; try contradiction; try exact I. destruct H as [H1 H2]. destruct sem0 eqn:Es; cbn; (split; [lia|]); intros ? Q; try discriminate Q. }
      unfold bump. cbn. destruct permits0 as [k|]; [destruct sem0|]; exact Hs.
    - apply Nat.ltb_ge in Hb. assert (Hb' : buffered x s = 0) by lia. clear Hb. destruct (exhausted x) eqn:Ex.
      { injection P as <-. prep x. unfold safe; cbn. split; [exact A|]. split; [exact B|]. split; [exists t; split; auto|].
        split. { intros s' Q. apply D. unfold set in Q. destruct (side_eqb s' s); [discriminate|exact Q]. }
        split. { intros Q. destruct (E Q) as [s' Q']. destruct (D s' Q') as (_&_&_&Q4). congruence. }
        split; [exact F|]. split; [|exact H]. intros s' Q. unfold set in Q. split; [reflexivity|]. destruct (side_eqb s' s) eqn:E1; [destruct s', s; try discriminate; assumption|]. apply G, Q. }
      destruct (acquire x s) as [got x1] eqn:Ea. destruct got; cbn in P.
      2: { injection P as <-. unfold acquire in Ea. destruct (permits x) as [k|] eqn:Ep; [|discriminate].
        assert (E1 : exists k, x1 = with_sem x (Some k) (FWait s) /\ k = 0 /\ permits x = Some k /\ sem x <> FReady).
        { destruct cap as [n|]; [|contradiction]. destruct H as [_ H]. destruct (sem x) eqn:Es; [destruct k; [|discriminate]| |discriminate]; injection Ea as <-; eexists; (split; [reflexivity|]); repeat split; auto; try congruence; apply (H _ eq_refl). }
        destruct E1 as (k'&->&->&Ep'&Es'). clear Ea. rewrite Ep in Ep'. injection Ep' as ->. prep x. unfold safe; cbn. split; [exact A|]. split; [exact B|]. split; [exists t; split; auto|].
        split. { intros s' Q. apply D. unfold set in Q. destruct (side_eqb s' s); [discriminate|exact Q]. }
        split. { intros Q. destruct (E Q) as [s' Q']. exists s'. unfold set. destruct (side_eqb s' s) eqn:E1; [|exact Q']. destruct s', s; try discriminate; congruence. }
        split; [exact F|]. split. { intros s' Q. apply G. unfold set in Q. destruct (side_eqb s' s); [discriminate|exact Q]. }
        destruct cap as [n|]; [|contradiction]. destruct H as [H1 H2]. split; [|auto]. destruct sem0; try congruence; lia. }
      (* the permit is there *)
      assert (E1 : exists k f, x1 = with_sem x k f /\ match cap, k with None, None => True | Some n, Some k => k + length (buf x) + (if taken x then 1 else 0) + 1 = n /\ f = FNone | _, _ => False end).
      { unfold acquire in Ea. destruct cap as [n|], (permits x) as [k|] eqn:Ep; try contradiction.
        - destruct H as [H1 H2]. destruct (sem x) eqn:Es; [destruct k; [discriminate|]|discriminate|]; injection Ea as <-; eexists _, _; (split; [reflexivity|]); split; [lia|reflexivity|lia|reflexivity].
        - injection Ea as <-. exists None, (sem x). split; [|exact I]. destruct x; cbn in *. unfold with_sem; cbn. congruence. }
      destruct E1 as (k&f&->&H'). clear Ea H. cbn in P.
      destruct (match polling x with Some p => negb (side_eqb p s) | None => false end) eqn:Eq.
      { injection P as <-. apply release_safe.
        assert (Hs : safe items cap {| src := src x; buf := buf x; polling := polling x; waker := Some s; exhausted := exhausted x; buffered := buffered x;
          permits := match k with None => None | Some k => Some (S k) end; sem := f; taken := taken x; innerw := innerw x; ph := set (ph x) s Wait; woken := woken x; out := out x |}).
        { prep x. unfold safe; cbn. split; [exact A|]. split; [exact B|]. split; [exists t; split; auto|].
          split. { intros s' Q. apply D. unfold set in Q. destruct (side_eqb s' s); [discriminate|exact Q]. }
          split. { intros Q. destruct (E Q) as [s' Q']. exists s'. unfold set. destruct (side_eqb s' s) eqn:E1; [|exact Q']. destruct s', s; try discriminate; congruence. }
          split; [exact F|]. split. { intros s' Q. apply G. unfold set in Q. destruct (side_eqb s' s); [discriminate|exact Q]. }
          destruct cap as [n|], k as [k|]; try exact H'. destruct H' as [H1 ->]. split; [lia|discriminate]. }
        unfold bump. cbn. destruct cap as [n|], k as [k|]; try contradiction; [destruct H' as [_ ->]|]; exact Hs. }
      destruct (taken x) eqn:Et; [discriminate|]. injection P as <-. prep x. unfold safe; cbn. split; [exact A|]. split; [exact B|]. split; [exists t; split; auto|].
      split. { intros s' Q. unfold set in Q. destruct (side_eqb s' s) eqn:E1; [|destruct (D s' Q) as (_&D2&_); congruence]. assert (s' = s) as -> by (destruct s', s; try discriminate; reflexivity). auto. }
      split. { intros _. exists s. unfold set. destruct s; reflexivity. }
      split; [intros Q; congruence|]. split. { intros s' Q. apply G. unfold set in Q. destruct (side_eqb s' s); [discriminate|exact Q]. }
      destruct cap as [n|], k as [k|]; try exact H'. destruct H' as [H1 ->]. split; [lia|discriminate].
  Qed.

  Lemma other_flight items cap x s s' : safe items cap x -> ph x s = Flight -> ph x s' = Flight -> s' = s.
  Proof. intros (_&_&_&D&_) P Q. destruct (D _ P) as [P1 _], (D _ Q) as [Q1 _]. congruence. Qed.
  Lemma finish_safe items cap x s pend : safe items cap x -> ph x s = Flight -> safe items cap (finish x s pend).
  Proof.
    intros S0 P. assert (U := other_flight items cap x s). destruct S0 as (A&B&(t&C1&C2)&D&E&F&G&H). destruct (D _ P) as (P1&P2&P3&P4).
    assert (U' : forall s', ph x s' = Flight -> s' = s) by (intros s' Q; destruct (D _ Q) as [Q1 _]; congruence). clear U.
    unfold finish. destruct pend.
    - apply release_safe.
      assert (Hs : safe items cap {| src := src x; buf := buf x; polling := polling x; waker := waker x; exhausted := exhausted x; buffered := buffered x;
          permits := match permits x with None => None | Some k => match sem x with FWait _ => Some k | _ => Some (S k) end end;
          sem := match permits x with None => sem x | Some k => match sem x with FWait _ => FReady | f => f end end;
          taken := false; innerw := Some s; ph := set (ph x) s (if woken x s then Run else Wait); woken := woken x; out := out x |}).
      { unfold safe; cbn [src buf polling waker exhausted buffered permits sem taken innerw ph woken out]. split; [exact A|]. split; [exact B|]. split; [exists t; split; auto|].
        split. { intros s' Q. unfold set in Q. destruct (side_eqb s' s) eqn:E1; [destruct (woken x s); discriminate|]. rewrite (U' _ Q) in E1. destruct s; discriminate. }
        split; [discriminate|]. split; [exact F|]. split. { intros s' Q. unfold set in Q. destruct (side_eqb s' s) eqn:E1; [destruct (woken x s); discriminate|]. apply G, Q. }
        destruct cap as [n|], (permits x) as [k|]; try contradiction; try exact I. destruct H as [H1 H2]. rewrite P2 in H1. destruct (sem x); (split; [lia|]); intros; discriminate. }
      unfold bump. cbn. destruct (permits x) as [k|]; [destruct (sem x)|]; exact Hs.
    - destruct (src x) as [|v rest] eqn:Es.
      + eapply safe_woke; [apply release_woke|]. eapply safe_woke; [apply bump_woke, wake_other_woke|].
        assert (Hs : safe items cap {| src := []; buf := buf x; polling := None; waker := None; exhausted := true; buffered := buffered x;
          permits := match permits x with None => None | Some k => match sem x with FWait _ => Some k | _ => Some (S k) end end;
          sem := match permits x with None => sem x | Some k => match sem x with FWait _ => FReady | f => f end end;
          taken := false; innerw := None; ph := set (ph x) s Fin; woken := woken x; out := out x |}).
        { unfold safe; cbn [src buf polling waker exhausted buffered permits sem taken innerw ph woken out]. split; [exact A|]. split; [exact B|]. split; [exists t; split; auto|].
          split. { intros s' Q. unfold set in Q. destruct (side_eqb s' s) eqn:E1; [discriminate|]. rewrite (U' _ Q) in E1. destruct s; discriminate. }
          split; [discriminate|]. split; [auto|]. split. { intros s' Q. split; [reflexivity|]. unfold set in Q. destruct (side_eqb s' s) eqn:E1; [destruct s', s; try discriminate; exact P3|]. destruct (G _ Q). congruence. }
          destruct cap as [n|], (permits x) as [k|]; try contradiction; try exact I. destruct H as [H1 H2]. rewrite P2 in H1. destruct (sem x); (split; [lia|]); intros; discriminate. }
        unfold bump, clear. cbn. destruct (permits x) as [k|]; [destruct (sem x)|]; exact Hs.
      + apply wake_other_safe. unfold clear; cbn. unfold safe; cbn [src buf polling waker exhausted buffered permits sem taken innerw ph woken out].
        assert (L1 : length (buf x ++ [v]) = S (length (buf x))) by (rewrite app_length; cbn; lia).
        split; [destruct s; cbn; lia|]. split; [rewrite L1; destruct s; cbn; lia|]. split.
        { exists (t ++ [v]). split; [rewrite <- app_assoc; exact C1|]. intros s'. pose proof (C2 s) as Cs. pose proof (C2 (other s)) as Co. rewrite P3 in Cs. cbn in Cs. rewrite app_nil_r in Cs.
          unfold set. destruct (side_eqb s' s) eqn:E1.
          - assert (side_eqb s' (other s) = false) as -> by (destruct s', s; try discriminate; reflexivity). assert (s' = s) as -> by (destruct s', s; try discriminate; reflexivity). rewrite P3. cbn. rewrite app_nil_r. f_equal. exact Cs.
          - assert (side_eqb s' (other s) = true) as -> by (destruct s', s; try discriminate; reflexivity). assert (s' = other s) as -> by (destruct s', s; try discriminate; reflexivity).
            cbn. rewrite app_assoc. f_equal. rewrite ltb_0 in Co. destruct (buffered x (other s)) eqn:E2; [|exact Co].
            assert (buf x = []) as -> by (apply length_zero_iff_nil; destruct s; cbn in *; lia). exact Co. }
        split. { intros s' Q. unfold set in Q. destruct (side_eqb s' s) eqn:E1; [discriminate|]. rewrite (U' _ Q) in E1. destruct s; discriminate. }
        split; [discriminate|]. split; [intros Q; congruence|]. split. { intros s' Q. unfold set in Q. destruct (side_eqb s' s) eqn:E1; [discriminate|]. destruct (G _ Q). congruence. }
        destruct cap as [n|], (permits x) as [k|]; try contradiction; try exact I. destruct H as [H1 H2]. rewrite P2 in H1. split; [rewrite L1; lia|exact H2].
  Qed.
  Lemma with_ph_safe items cap x s p : safe items cap x -> ph x s <> Flight -> p <> Flight -> p <> Fin -> safe items cap (with_ph x s p).
  Proof.
    intros (A&B&C&D&E&F&G&H) N N1 N2. unfold safe; cbn. split; [exact A|]. split; [exact B|]. split; [exact C|].
    split. { intros s' Q. apply D. unfold set in Q. destruct (side_eqb s' s); congruence. }
    split. { intros Q. destruct (E Q) as [s' Q']. exists s'. unfold set. destruct (side_eqb s' s) eqn:E1; [|exact Q']. destruct s', s; try discriminate; congruence. }
    split; [exact F|]. split; [|exact H]. intros s' Q. apply G. unfold set in Q. destruct (side_eqb s' s); congruence.
  Qed.
  Lemma is_eq a b : is a b = true -> a = b.
  Proof. destruct a, b; cbn; congruence. Qed.
  Lemma step_safe items cap x l y : safe items cap x -> step x l = Some (Some y) -> safe items cap y.
  Proof.
    intros S0 P. destruct l as [s|s pend| |s|s]; cbn in P.
    - destruct (is (ph x s) Run) eqn:E; [|discriminate]. injection P as P. eapply poll_safe; eauto using is_eq.
    - destruct (is (ph x s) Flight) eqn:E; [|discriminate]. injection P as <-. apply finish_safe; eauto using is_eq.
    - destruct (innerw x) as [s|]; [|discriminate]. injection P as <-. eapply safe_woke; [apply wake_woke|]. exact S0.
    - destruct (is (ph x s) Wait) eqn:E; [|discriminate]. apply is_eq in E. injection P as <-. apply with_ph_safe; congruence.
    - destruct (is (ph x s) Run || is (ph x s) Wait) eqn:E; [|discriminate]. injection P as <-. apply orb_true_iff in E. apply with_ph_safe; try congruence. destruct E as [E|E]; apply is_eq in E; congruence.
  Qed.
  Lemma reach_safe drop par items cap x : reach drop par items cap x -> safe items cap x.
  Proof. induction 1; [apply start_safe|eauto using step_safe]. Qed.
  Lemma no_panic items cap x l : safe items cap x -> step x l <> Some None.
  Proof.
    intros S0 P. destruct l as [s|s pend| |s|s]; cbn in P.
    - destruct (is (ph x s) Run) eqn:E; [|discriminate]. apply is_eq in E. injection P as P. unfold poll in P. destruct (0 <? buffered x s); [discriminate|]. destruct (exhausted x); [discriminate|].
      destruct (acquire x s) as [got x1] eqn:Ea. destruct got; [|discriminate]. cbn in P.
      assert (E1 : exists k f, x1 = with_sem x k f).
      { unfold acquire in Ea. destruct (permits x) eqn:Ep; [destruct (sem x); [destruct n| |]|]; try discriminate; injection Ea as <-; eauto. exists (permits x), (sem x). destruct x; reflexivity. }
      destruct E1 as (k&f&->). cbn in P.
      destruct (match polling x with Some p => negb (side_eqb p s) | None => false end) eqn:Eq; [discriminate|]. destruct (taken x) eqn:Et; [|discriminate].
      destruct S0 as (_&_&_&D&E'&_). destruct (E' Et) as [s' Q]. destruct (D _ Q) as (Q1&_). rewrite Q1 in Eq. assert (s' = s) as -> by (destruct s', s; try discriminate; reflexivity). congruence.
    - destruct (is (ph x s) Flight); discriminate.
    - destruct (innerw x); discriminate.
    - destruct (is (ph x s) Wait); discriminate.
    - destruct (is (ph x s) Run || is (ph x s) Wait); discriminate.
  Qed.
End Share.
