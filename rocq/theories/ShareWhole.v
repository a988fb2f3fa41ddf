(* Theorems about shared streams (C136). *)
From Coq Require Import List Arith Bool Lia.
From Verif Require Import ShareModel ShareProofs ShareLive.
Import ListNotations.
Local Open Scope nat_scope.

(* a run: the steps taken since the stream was shared *)
Inductive run {T} (drop par : bool) (items : list T) (cap : option nat) : list label -> st -> Prop :=
| run_start : run drop par items cap [] (start items cap)
| run_step ls x l y : run drop par items cap ls x -> allowed drop par x l -> step x l = Some (Some y) -> run drop par items cap (ls ++ [l]) y.
Lemma run_reach {T} drop par (items : list T) cap ls x : run drop par items cap ls x -> reach drop par items cap x.
Proof. induction 1; [constructor|econstructor; eauto]. Qed.

(* each half gets the items in order without gaps; one that sees the end has got all; one is ahead of the other by at most the capacity;
   nothing panics *)
Theorem share_safe {T} drop par (items : list T) cap ls x : run drop par items cap ls x ->
  (forall s, exists more, items = out x s ++ more) /\
  (forall s, ph x s = Fin -> out x s = items) /\
  (forall s n, cap = Some n -> length (out x s) <= length (out x (other s)) + n) /\
  (forall l, step x l <> Some None).
Proof.
  intros R. apply run_reach, reach_safe in R. pose proof R as S0. destruct R as (A&B&(t&C1&C2)&D&E&F&G&H).
  split. { intros s. rewrite C1, <- (C2 s). rewrite <- app_assoc. eauto. }
  split. { intros s Q. destruct (G s Q) as [G1 G2]. destruct (F G1) as [F1 _]. rewrite C1, F1, app_nil_r, <- (C2 s), G2. cbn. now rewrite app_nil_r. }
  split. { intros s n ->. pose proof (f_equal (@length T) (C2 s)) as Ls. pose proof (f_equal (@length T) (C2 (other s))) as Lo. rewrite app_length in Ls, Lo.
    destruct (permits x) as [k|]; [|contradiction]. destruct H as [H1 _]. destruct (0 <? buffered x s), (0 <? buffered x (other s)); cbn in *; lia. }
  intros l. eapply no_panic, S0.
Qed.

(* while a half sleeps, the other is not ahead of it and has not seen the end *)
Theorem share_no_lost_wakeup {T} par (items : list T) cap ls x s : match cap with None => True | Some n => 2 <= n \/ (n = 1 /\ par = false) end ->
  run false par items cap ls x -> ph x s = Wait -> length (out x (other s)) <= length (out x s) /\ ph x (other s) <> Fin.
Proof.
  intros En R W. apply run_reach in R. destruct (reach_live par items cap x En R) as [(A&B&(t&C1&C2)&D&E&F&G&H) (A'&B'&C'&D')].
  destruct (C' s ltac:(discriminate) W) as (W1&W2&_). split.
  - pose proof (f_equal (@length T) (C2 s)) as Ls. pose proof (f_equal (@length T) (C2 (other s))) as Lo. rewrite app_length in Ls, Lo. rewrite W1 in Ls. cbn in Ls. lia.
  - intros Q. destruct (G _ Q). congruence.
Qed.

(* until both halves have seen the end, some task can go on, or the stream inside will wake one *)
Theorem share_not_stuck {T} par (items : list T) cap ls x : match cap with None => True | Some n => 2 <= n \/ (n = 1 /\ par = false) end ->
  run false par items cap ls x ->
  (forall s, ph x s = Fin) \/
  exists l y, (match l with LSpurious _ | LDrop _ => False | _ => True end) /\ allowed false par x l /\ step x l = Some (Some y).
Proof.
  intros En R. apply run_reach in R. destruct (reach_live par items cap x En R) as [S0 (A'&B'&C'&D')]. pose proof S0 as (A&B&(t&C1&C2)&D&E&F&G&H).
  assert (Fl : forall s, ph x s = Flight -> exists l y, (match l with LSpurious _ | LDrop _ => False | _ => True end) /\ allowed false par x l /\ step x l = Some (Some y)).
  { intros s Q. exists (LFinish s false), (finish x s false). repeat split; auto. cbn. rewrite Q. reflexivity. }
  assert (Nf : {s | ph x s = Flight} + {forall s, ph x s <> Flight}).
  { destruct (ph x Left) eqn:EL; destruct (ph x Right) eqn:ER; try (left; exists Left; assumption); try (left; exists Right; assumption); right; intros []; congruence. }
  destruct Nf as [[s Q]|Nf]; [right; eauto|].
  assert (Ru : forall s, ph x s = Run -> exists l y, (match l with LSpurious _ | LDrop _ => False | _ => True end) /\ allowed false par x l /\ step x l = Some (Some y)).
  { intros s Q. destruct (poll x s) as [y|] eqn:Ep.
    - exists (LPoll s), y. split; [exact I|]. split; [right; exact Nf|]. cbn. rewrite Q. cbn. now rewrite Ep.
    - exfalso. apply (no_panic items cap x (LPoll s) S0). cbn. rewrite Q. cbn. now rewrite Ep. }
  assert (In : forall s, innerw x = Some s -> exists l y, (match l with LSpurious _ | LDrop _ => False | _ => True end) /\ allowed false par x l /\ step x l = Some (Some y)).
  { intros s Q. exists LInner. eexists. split; [exact I|]. split; [exact I|]. cbn. rewrite Q. reflexivity. }
  assert (Wt : forall s, ph x s = Wait -> exists l y, (match l with LSpurious _ | LDrop _ => False | _ => True end) /\ allowed false par x l /\ step x l = Some (Some y)).
  { intros s W. destruct (C' s ltac:(discriminate) W) as (W1&W2&[[W3 W4]|[[W3 W4]|W3]]).
    - eauto.
    - destruct (B' _ W3) as [_ [B2|[[B2|[B2 B4]] _]]]; eauto.
    - destruct (D' _ W3) as [_ (n&->&N2&N3)]. apply (Ru (other s)).
      assert (Bo : buffered x (other s) = n) by (destruct s; cbn in *; lia).
      destruct (ph x (other s)) eqn:Eo; [reflexivity|destruct (Nf _ Eo)| | |destruct (A' _ Eo)].
      + destruct (C' _ ltac:(discriminate) Eo) as (Q&_). lia.
      + destruct (G _ Eo). lia. }
  destruct (ph x Left) eqn:EL; [right; eauto|right; eauto|right; eauto| |destruct (A' _ EL)].
  destruct (ph x Right) eqn:ER; [right; eauto|right; eauto|right; eauto| |destruct (A' _ ER)].
  left. intros []; assumption.
Qed.

(* how much is left to do *)
Definition pend_label (l : label) : bool := match l with LFinish _ true => true | _ => false end.
Definition spurious_label (l : label) : bool := match l with LSpurious _ => true | _ => false end.
Definition cost (p : phase) : nat := match p with Run => 3 | Flight => 2 | Wait | Fin => 1 | Gone => 0 end.
Ltac sm := unfold set, give, with_ph; cbn [src buf polling waker exhausted buffered permits sem taken innerw ph woken out side_eqb cost other].
Section Measure.
  Context {T : Type}.
  Definition M (items : list T) (x : @st T) : nat :=
    8 * (length items - length (out x Left)) + 8 * (length items - length (out x Right)) + (if exhausted x then 0 else 8) + cost (ph x Left) + cost (ph x Right) + (match innerw x with Some _ => 4 | None => 0 end).
  Lemma M_with_ph items x s p : M items (with_ph x s p) + cost (ph x s) = M items x + cost p.
  Proof. unfold M; sm. destruct s; sm; lia. Qed.
  Lemma M_wake items x s : M items (wake x s) <= M items x + 2.
  Proof.
    unfold wake. destruct (ph x s) eqn:E; try lia; [unfold M; sm; lia|]. pose proof (M_with_ph items x s Run) as K. rewrite E in K. cbn [cost] in K. lia.
  Qed.
  Lemma M_release items x : M items (release x) <= M items x + 2.
  Proof. unfold release. destruct (permits x); [|lia]. destruct (sem x); try (unfold M, with_sem; sm; lia). rewrite M_wake. unfold M, with_sem; sm. lia. Qed.
  Lemma M_wake_other items x : M items (wake_other x) <= M items x + 2.
  Proof. unfold wake_other. destruct (waker x); [|lia]. rewrite M_wake. unfold M, with_sem; sm. lia. Qed.

  Lemma poll_M items cap x s y : safe items cap x -> ph x s = Run -> poll x s = Some y -> M items y < M items x.
  Proof.
    intros S0 R P. pose proof (poll_safe items cap x s y S0 R P) as S1. unfold poll in P. destruct (0 <? buffered x s) eqn:Hb.
    - apply Nat.ltb_lt in Hb. injection P as <-. destruct S0 as (A&B&(t&C1&C2)&_). destruct (buf x) as [|v rest] eqn:Eb; [cbn in B; destruct s; lia|].
      eapply Nat.le_lt_trans; [apply M_release|]. assert (Lt : length (out x s) < length items). { rewrite C1, <- (C2 s), ltb_0, !app_length. destruct (buffered x s); [lia|]. cbn. lia. }
      unfold M; sm. destruct s; sm; rewrite app_length; cbn [length]; lia.
    - destruct (exhausted x) eqn:Ex. { injection P as <-. pose proof (M_with_ph items x s Fin) as K. rewrite R in K. cbn [cost] in K. lia. }
      destruct (acquire x s) as [got x1] eqn:Ea. assert (E1 : exists k f, x1 = with_sem x k f).
      { unfold acquire in Ea. destruct (permits x) eqn:Ep; [destruct (sem x); [destruct n| |]|]; injection Ea as _ <-; eauto. exists (permits x), (sem x). destruct x; reflexivity. }
      destruct E1 as (k&f&->). destruct got; cbn in P.
      2: { injection P as <-. pose proof (M_with_ph items (with_sem x k f) s Wait) as K. cbn [ph with_sem] in K. rewrite R in K. cbn [cost] in K. assert (M items (with_sem x k f) = M items x) by reflexivity. lia. }
      destruct (match polling x with Some p => negb (side_eqb p s) | None => false end) eqn:Eq.
      { injection P as <-. (* the permit was just taken, so nobody waits for one *)
        assert (Nf : forall w, k <> None -> f <> FWait w).
        { unfold acquire in Ea. intros w Nk. destruct (permits x) eqn:Ep; [destruct (sem x); [destruct n; [discriminate|]|discriminate|]|].
          - assert (f = FNone) by (injection Ea as Ea; congruence). congruence.
          - assert (f = FNone) by (injection Ea as Ea; congruence). congruence.
          - exfalso. apply Nk. injection Ea as Ea. rewrite Ea in Ep. exact Ep. }
        unfold release. cbn [permits with_ph]. destruct k as [k|].
        - cbn [sem]. destruct f as [|w|]; [|destruct (Nf w ltac:(discriminate) eq_refl)|]; unfold M, with_sem; sm; destruct s; sm; rewrite R; sm; lia.
        - unfold M, with_sem; sm; destruct s; sm; rewrite R; sm; lia. }
      destruct (taken x); [discriminate|]. injection P as <-. unfold M, with_sem; sm; destruct s; sm; rewrite R; sm; lia.
  Qed.
  Lemma finish_M items cap x s pend : safe items cap x -> ph x s = Flight -> M items (finish x s pend) < M items x + (if pend then 8 else 0).
  Proof.
    intros S0 P. destruct S0 as (A&B&(t&C1&C2)&D&_). destruct (D s P) as (P1&P2&P3&P4). unfold finish. destruct pend.
    - eapply Nat.le_lt_trans; [apply M_release|]. unfold M; sm. destruct (woken x s), s, (innerw x); sm; rewrite P; sm; lia.
    - destruct (src x) as [|v rest] eqn:Es.
      + eapply Nat.le_lt_trans; [apply M_release|]. eapply Nat.le_lt_trans; [apply Nat.add_le_mono_r, M_wake_other|]. unfold M; sm. rewrite P4. destruct s, (innerw x); sm; rewrite P; sm; lia.
      + eapply Nat.le_lt_trans; [apply M_wake_other|]. assert (Lt : length (out x s) < length items). { rewrite C1, <- (C2 s), !app_length. cbn. lia. }
        unfold M; sm. rewrite P4. destruct s, (innerw x); sm; rewrite P, app_length; cbn [cost length]; lia.
  Qed.
  Lemma step_M items cap x l y : safe items cap x -> step x l = Some (Some y) -> M items y < M items x + (if pend_label l then 8 else 0) + (if spurious_label l then 3 else 0).
  Proof.
    intros S0 P. destruct l as [s|s pend| |s|s]; cbn in P.
    - destruct (is (ph x s) Run) eqn:E; [|discriminate]. apply is_eq in E. injection P as P. cbn [pend_label spurious_label]. pose proof (poll_M items cap x s y S0 E P). lia.
    - destruct (is (ph x s) Flight) eqn:E; [|discriminate]. apply is_eq in E. injection P as <-. pose proof (finish_M items cap x s pend S0 E). cbn [pend_label spurious_label]. destruct pend; lia.
    - destruct (innerw x) as [s|] eqn:Ei; [|discriminate]. injection P as <-. pose proof (M_wake items {| src := src x; buf := buf x; polling := polling x; waker := waker x; exhausted := exhausted x; buffered := buffered x; permits := permits x; sem := sem x;
        taken := taken x; innerw := None; ph := ph x; woken := woken x; out := out x |} s) as K. cbn [pend_label spurious_label]. unfold M in K at 2. cbn [out exhausted ph innerw] in K. unfold M at 2. rewrite Ei. lia.
    - destruct (is (ph x s) Wait) eqn:E; [|discriminate]. apply is_eq in E. injection P as <-. pose proof (M_with_ph items x s Run) as K. rewrite E in K. cbn [cost pend_label spurious_label] in *. lia.
    - destruct (is (ph x s) Run || is (ph x s) Wait) eqn:E; [|discriminate]. injection P as <-. pose proof (M_with_ph items x s Gone) as K. apply orb_true_iff in E. destruct E as [E|E]; apply is_eq in E; rewrite E in K; cbn [cost pend_label spurious_label] in *; lia.
  Qed.
End Measure.

(* a run is finite: its length is bounded by the number of items and how often the stream inside was pending and tasks were polled for
   another reason; so with what is above, a run that goes on as long as it can ends with both halves having got everything *)
Theorem share_finite {T} drop par (items : list T) cap ls x : run drop par items cap ls x ->
  length ls <= 16 * length items + 14 + 8 * length (filter (fun l => match l with LFinish _ true => true | _ => false end) ls) + 3 * length (filter (fun l => match l with LSpurious _ => true | _ => false end) ls).
Proof.
  intros R. enough (length ls + M items x <= 16 * length items + 14 + 8 * length (filter pend_label ls) + 3 * length (filter spurious_label ls)) by (unfold pend_label, spurious_label in *; lia).
  induction R as [|ls x l y R IH Al P]; [unfold M, start; sm; cbn [cost length filter]; lia|]. apply run_reach, reach_safe in R. pose proof (step_M items cap x l y R P) as K.
  rewrite !filter_app, !app_length. cbn [filter length]. destruct (pend_label l), (spurious_label l); cbn [length]; lia.
Qed.
