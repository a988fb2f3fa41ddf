(* Proofs about the scheduler's queue, I/O loop and accounting (C55). *)
From Coq Require Import List Arith ZArith Lia Bool Permutation Sorted.
From Verif Require Import Lib SchedModel.
Import ListNotations.

Local Arguments of i l : simpl never.
Local Arguments sum_bytes l : simpl never.
(* where a task can be, once pushed *)
Definition tasks (s : st) : list task := pend s ++ run s ++ deliv s ++ fin s.
(* issued, and their bytes not yet handed back *)
Definition issued (s : st) : list task := run s ++ deliv s ++ fin s.

(* ---- lists ---- *)
Lemma filter_perm : forall {A} (f : A -> bool) l l', Permutation l l' -> Permutation (filter f l) (filter f l').
Proof.
  intros A f l l' P. induction P; cbn; auto.
  - destruct (f x); auto.
  - destruct (f x), (f y); auto. constructor.
  - eapply perm_trans; eauto.
Qed.
Lemma filter_split_perm : forall {A} (f : A -> bool) l, Permutation l (filter f l ++ filter (fun x => negb (f x)) l).
Proof. intros A f l. induction l as [|x l IH]; [constructor|]. cbn. destruct (f x); cbn; [constructor; exact IH|]. apply Permutation_cons_app. exact IH. Qed.
Lemma sum_perm : forall l l', Permutation l l' -> sum_bytes l = sum_bytes l'.
Proof. intros l l' P. unfold sum_bytes. induction P; cbn; lia. Qed.
Lemma sum_app : forall l l', sum_bytes (l ++ l') = sum_bytes l + sum_bytes l'.
Proof. unfold sum_bytes. induction l; cbn; intros; [reflexivity|]. rewrite IHl. lia. Qed.
Lemma sum_cons : forall t l, sum_bytes (t :: l) = t_bytes t + sum_bytes l.
Proof. reflexivity. Qed.
Lemma of_app : forall i l l', of i (l ++ l') = of i l ++ of i l'.
Proof. intros. unfold of. apply filter_app. Qed.
Lemma of_In : forall i l t, In t (of i l) <-> In t l /\ t_batch t = i.
Proof. intros. unfold of. rewrite filter_In, Nat.eqb_eq. reflexivity. Qed.
Lemma of_nil : forall i l, of i l = [] -> forall t, In t l -> t_batch t <> i.
Proof. intros i l E t I H. assert (X : In t (of i l)) by (apply of_In; auto). rewrite E in X. destruct X. Qed.
Lemma of_cons : forall i t l, of i (t :: l) = if t_batch t =? i then t :: of i l else of i l.
Proof. reflexivity. Qed.
Lemma upd_In : forall i f l c, In c (upd_batch i f l) <-> exists b, In b l /\ c = if b_id b =? i then f b else b.
Proof. intros. unfold upd_batch. rewrite in_map_iff. split; intros [b [H1 H2]]; exists b; auto. Qed.
Lemma upd_ids : forall i f l, (forall b, b_id (f b) = b_id b) -> map b_id (upd_batch i f l) = map b_id l.
Proof. intros i f l H. unfold upd_batch. rewrite map_map. apply map_ext. intros b. destruct (b_id b =? i); auto. Qed.
Lemma id_inj : forall l b c, NoDup (map b_id l) -> In b l -> In c l -> b_id b = b_id c -> b = c.
Proof.
  induction l as [|x l IH]; intros b c N Ib Ic E; [destruct Ib|]. cbn in N. inversion N; subst. destruct Ib as [<-|Ib], Ic as [<-|Ic]; auto.
  - exfalso. apply H1. rewrite E. apply in_map. exact Ic.
  - exfalso. apply H1. rewrite <- E. apply in_map. exact Ib.
Qed.

(* ---- the sorted vector of priorities ---- *)
Lemma push_perm : forall p l, Permutation (prio_push p l) (p :: l).
Proof. intros p l. induction l as [|x l IH]; cbn; [constructor; constructor|]. destruct (p <=? x); [reflexivity|]. rewrite IH. constructor. Qed.
Lemma push_sorted : forall p l, StronglySorted le l -> StronglySorted le (prio_push p l).
Proof.
  intros p l S. induction S as [|x l S IH F]; cbn; [repeat constructor|]. destruct (Nat.leb_spec p x).
  - constructor; [constructor; assumption|]. constructor; [assumption|]. eapply Forall_impl; [|exact F]. cbn. lia.
  - constructor; [exact IH|]. rewrite Forall_forall in *. intros y I. apply (Permutation_in _ (push_perm p l)) in I. destruct I as [<-|I]; [lia|auto].
Qed.
Lemma remove_spec : forall p l, In p l -> StronglySorted le l -> exists l', prio_remove p l = Some l' /\ Permutation l (p :: l') /\ StronglySorted le l'.
Proof.
  intros p l I S. induction S as [|x l S IH F]; [destruct I|]. cbn. destruct (Nat.eqb_spec p x) as [->|N].
  - exists l. split; [reflexivity|]. split; [reflexivity|exact S].
  - destruct I as [I|I]; [congruence|]. destruct (IH I) as [l' [E [P S']]]. exists (x :: l'). rewrite E. split; [reflexivity|]. split.
    + rewrite P. constructor.
    + constructor; [exact S'|]. rewrite Forall_forall in *. intros y J. apply F. apply (Permutation_in _ (Permutation_sym P)). right. exact J.
Qed.
Lemma remove_n_spec : forall n p l m, Permutation l (repeat p n ++ m) -> StronglySorted le l ->
  exists l', prio_remove_n n p l = Some l' /\ Permutation l' m /\ StronglySorted le l'.
Proof.
  induction n as [|n IH]; intros p l m P S; cbn [prio_remove_n].
  - exists l. auto.
  - destruct (remove_spec p l) as [l' [E [Q S']]]; [apply (Permutation_in _ (Permutation_sym P)); left; reflexivity|exact S|]. rewrite E. cbn [obind].
    apply IH; [|exact S']. cbn in P. rewrite Q in P. apply Permutation_cons_inv in P. exact P.
Qed.
Lemma min_head : forall l m, StronglySorted le l -> min_in_flight l = Some m -> In m l /\ forall x, In x l -> m <= x.
Proof. intros l m S H. destruct S as [|y l S F]; [discriminate|]. injection H as <-. split; [left; reflexivity|]. intros x [<-|I]; [lia|]. rewrite Forall_forall in F. auto. Qed.

(* ---- the invariant ---- *)
Definition batch_ok (s : st) (b : batch) : Prop :=
  Permutation (b_tasks b) (b_unpushed b ++ of (b_id b) (tasks s)) /\ b_done b = length (of (b_id b) (fin s)) /\
  b_bytes b = sum_bytes (of (b_id b) (fin s)) /\ Forall (fun t => t_batch t = b_id b /\ t_prio t = b_prio b) (b_tasks b).
Record inv (cap budget : nat) (s : st) : Prop := {
  i_iops : iops s + length (run s) = cap;
  i_bytes : (bytes s + Z.of_nat (sum_bytes (issued s)) = Z.of_nat budget)%Z;
  i_sorted : StronglySorted le (inflight s);
  i_perm : Permutation (inflight s) (map t_prio (issued s));
  i_ids : NoDup (map b_id (batches s));
  i_batch : forall b, In b (batches s) -> batch_ok s b;
  i_owner : forall t, In t (tasks s) -> exists b, In b (batches s) /\ b_id b = t_batch t;
  i_wait : loop s = Wait -> permit s = false -> (pend s = [] /\ closed s = false) \/ exists t, peek (pend s) t /\ can_deliver s t = false;
  i_exit : loop s = Exited -> closed s = true /\ pend s = [];
  i_closed : closed s = true -> forall b, In b (batches s) -> b_unpushed b = [] }.

Lemma mk_tasks_spec : forall i prio sizes idx, Forall (fun t => t_batch t = i /\ t_prio t = prio) (mk_tasks i prio idx sizes).
Proof. intros i prio sizes. induction sizes; intros idx; cbn; constructor; auto. Qed.
(* a ready batch: all its tasks have been delivered, none is anywhere else *)
Lemma ready_all : forall cap budget s b, inv cap budget s -> In b (batches s) -> ready b ->
  Permutation (b_tasks b) (of (b_id b) (fin s)) /\ of (b_id b) (pend s) = [] /\ of (b_id b) (run s) = [] /\ of (b_id b) (deliv s) = [].
Proof.
  intros cap budget s b J I [R1 R2]. destruct (i_batch _ _ _ J b I) as [P [D [_ _]]]. rewrite R1 in P. cbn in P. unfold tasks in P. rewrite !of_app in P.
  pose proof (Permutation_length P) as L. rewrite !app_length in L.
  assert (Z : forall l : list task, length l = 0 -> l = []) by (intros [|]; cbn; [auto|lia]).
  assert (E1 : of (b_id b) (pend s) = []) by (apply Z; lia). assert (E2 : of (b_id b) (run s) = []) by (apply Z; lia). assert (E3 : of (b_id b) (deliv s) = []) by (apply Z; lia).
  rewrite E1, E2, E3 in P. auto.
Qed.
Lemma consume_ok : forall cap budget s b, inv cap budget s -> In b (batches s) -> ready b ->
  exists fl, prio_remove_n (length (b_tasks b)) (b_prio b) (inflight s) = Some fl /\ StronglySorted le fl /\
    Permutation fl (map t_prio (run s ++ deliv s ++ filter (fun t => negb (t_batch t =? b_id b)) (fin s))).
Proof.
  intros cap budget s b J I R. destruct (ready_all _ _ _ _ J I R) as [P [E1 [E2 E3]]]. destruct (i_batch _ _ _ J b I) as [_ [_ [_ F]]].
  assert (RP : map t_prio (of (b_id b) (fin s)) = repeat (b_prio b) (length (b_tasks b))).
  { rewrite (Permutation_length P). assert (F' : Forall (fun t => t_prio t = b_prio b) (of (b_id b) (fin s))).
    { rewrite Forall_forall in *. intros t It. apply (F t). apply (Permutation_in _ (Permutation_sym P)). exact It. }
    clear - F'. induction F'; cbn; [reflexivity|]. f_equal; auto. }
  destruct (remove_n_spec (length (b_tasks b)) (b_prio b) (inflight s) (map t_prio (run s ++ deliv s ++ filter (fun t => negb (t_batch t =? b_id b)) (fin s)))) as [fl [E [Q S]]].
  - rewrite (i_perm _ _ _ J). rewrite <- RP, <- map_app. apply Permutation_map. unfold issued.
    rewrite (filter_split_perm (fun t => t_batch t =? b_id b) (fin s)) at 1. fold (of (b_id b) (fin s)).
    rewrite !app_assoc. apply Permutation_app_tail. rewrite <- (app_assoc (of (b_id b) (fin s))). apply Permutation_app_comm.
  - apply (i_sorted _ _ _ J).
  - exists fl. auto.
Qed.

Lemma Perm_mid : forall {A} (l1 : list A) t l2, Permutation (l1 ++ t :: l2) (t :: l1 ++ l2).
Proof. intros. symmetry. apply Permutation_middle. Qed.
(* batch_ok only depends on the tasks of the batch *)
Lemma batch_ok_perm : forall s s' b, batch_ok s b -> Permutation (of (b_id b) (tasks s)) (of (b_id b) (tasks s')) -> of (b_id b) (fin s) = of (b_id b) (fin s') -> batch_ok s' b.
Proof. intros s s' b [P [D [B F]]] Q E. unfold batch_ok. rewrite <- E. rewrite <- Q. auto. Qed.
Lemma peek_exists : forall l : list task, l <> [] -> exists t, peek l t.
Proof.
  induction l as [|x l IH]; intros N; [congruence|]. destruct l as [|y l].
  - exists x. split; [left; reflexivity|]. intros u [<-|[]]. lia.
  - destruct IH as [t [I M]]; [discriminate|]. destruct (le_lt_dec (t_prio x) (t_prio t)).
    + exists x. split; [left; reflexivity|]. intros u [<-|J]; [lia|]. specialize (M u J). lia.
    + exists t. split; [right; exact I|]. intros u [<-|J]; [lia|auto].
Qed.
Lemma inv_step : forall cap budget s s', inv cap budget s -> step s s' -> inv cap budget s'.
Proof.
  intros cap budget s s' J H. destruct H.
  - (* submit *)
    constructor; cbn; try apply J.
    + constructor; [exact H0|apply J].
    + intros b [<-|I].
      * assert (N : of i (tasks s) = []).
        { destruct (of i (tasks s)) as [|t l] eqn:E; [reflexivity|]. exfalso. assert (It : In t (of i (tasks s))) by (rewrite E; left; reflexivity).
          apply of_In in It as [It Bt]. destruct (i_owner _ _ _ J t It) as [b [Ib Eb]]. apply H0. rewrite <- Bt, <- Eb. apply in_map. exact Ib. }
        assert (NF : of i (fin s) = []) by (unfold tasks in N; rewrite !of_app in N; apply app_eq_nil in N as [_ N]; apply app_eq_nil in N as [_ N]; apply app_eq_nil in N as [_ N]; exact N).
        unfold batch_ok, tasks. cbn. fold (tasks s). rewrite N, NF, app_nil_r. repeat split; auto. apply mk_tasks_spec.
      * eapply batch_ok_perm; [apply (i_batch _ _ _ J b I)|reflexivity|reflexivity].
    + intros t I. destruct (i_owner _ _ _ J t I) as [b [Ib Eb]]. exists b. auto.
    + intros C. congruence.
  - (* push *)
    destruct (i_batch _ _ _ J b H) as [P [D [B F]]]. rewrite H0 in P. cbn in P.
    assert (TB : t_batch t = b_id b).
    { rewrite Forall_forall in F. apply F. apply (Permutation_in _ (Permutation_sym P)). left. reflexivity. }
    constructor; cbn; try apply J.
    + rewrite upd_ids by reflexivity. apply J.
    + intros c I. apply upd_In in I as [c0 [I E]]. destruct (Nat.eqb_spec (b_id c0) (b_id b)) as [EQ|NE].
      * assert (c0 = b) by (apply (id_inj (batches s)); auto; apply J). subst c0. subst c. unfold batch_ok, tasks; cbn [b_id b_prio b_tasks b_unpushed b_done b_bytes pend run deliv fin app].
        fold (tasks s). rewrite of_cons, TB, Nat.eqb_refl. split; [|auto]. rewrite P. apply Permutation_middle.
      * subst c. eapply batch_ok_perm; [apply (i_batch _ _ _ J c0 I)| |reflexivity]. unfold tasks. cbn [pend run deliv fin app]. fold (tasks s). rewrite of_cons.
        destruct (Nat.eqb_spec (t_batch t) (b_id c0)); [congruence|reflexivity].
    + intros u I. assert (I' : u = t \/ In u (tasks s)) by (destruct I; auto). 
      assert (X : exists c, In c (batches s) /\ b_id c = t_batch u) by (destruct I' as [->|I']; [exists b; auto|apply (i_owner _ _ _ J u I')]).
      destruct X as [c [Ic Ec]]. eexists. split; [apply upd_In; exists c; split; [exact Ic|reflexivity]|]. destruct (b_id c =? b_id b); exact Ec.
    + discriminate.
    + intros L. destruct (i_exit _ _ _ J L) as [C _]. rewrite (i_closed _ _ _ J C b H) in H0. discriminate.
    + intros C. rewrite (i_closed _ _ _ J C b H) in H0. discriminate.
  - (* pop *)
    unfold take_task. assert (PT : Permutation (tasks s) (tasks (take_task s t (l1 ++ l2)))).
    { unfold tasks, take_task; cbn. rewrite H0. rewrite <- !app_assoc. cbn. apply Permutation_app_head. rewrite (Permutation_middle l2). reflexivity. }
    assert (IA : iops s <> 0) by (unfold can_deliver in H2; destruct (Nat.eqb_spec (iops s) 0); [discriminate|assumption]).
    constructor; cbn; try apply J.
    + pose proof (i_iops _ _ _ J). lia.
    + pose proof (i_bytes _ _ _ J) as B. unfold issued in *. cbn [run deliv fin app]. change (sum_bytes (t :: run s ++ deliv s ++ fin s)) with (t_bytes t + sum_bytes (run s ++ deliv s ++ fin s)). lia.
    + apply push_sorted. apply J.
    + rewrite push_perm. constructor. apply J.
    + intros b I. eapply batch_ok_perm; [apply (i_batch _ _ _ J b I)|apply filter_perm; exact PT|reflexivity].
    + intros u I. apply (i_owner _ _ _ J u). apply (Permutation_in _ (Permutation_sym PT)). exact I.
    + discriminate.
    + discriminate.
  - (* wait *)
    constructor; cbn; try apply J.
    + intros _ _. destruct H0 as [E|X]; [left|right; exact X]. split; [exact E|]. destruct (closed s); [exfalso; apply H1; auto|reflexivity].
    + discriminate.
  - (* wake *)
    constructor; cbn; try apply J.
    + discriminate.
    + discriminate.
  - (* exit *)
    constructor; cbn; try apply J; auto.
    + discriminate.
  - (* iop done *)
    match goal with |- inv _ _ ?x => set (s' := x) end.
    assert (PI : Permutation (issued s) (issued s')).
    { unfold issued; subst s'; cbn. rewrite H. rewrite Perm_mid. cbn. apply (Permutation_middle (l1 ++ l2)). }
    assert (PT : Permutation (tasks s) (tasks s')) by (unfold tasks; subst s'; cbn [pend]; apply Permutation_app_head; exact PI).
    constructor; try apply J.
    + pose proof (i_iops _ _ _ J). subst s'; cbn. rewrite H in H0. rewrite app_length in *. cbn in H0. lia.
    + rewrite <- (sum_perm _ _ PI). apply J.
    + rewrite <- PI. apply J.
    + intros b I. eapply batch_ok_perm; [apply (i_batch _ _ _ J b I)|apply filter_perm; exact PT|reflexivity].
    + intros u I. apply (i_owner _ _ _ J u). apply (Permutation_in _ (Permutation_sym PT)). exact I.
    + discriminate.
  - (* deliver *)
    match goal with |- inv _ _ ?x => set (s' := x) end.
    assert (PI : Permutation (issued s) (issued s')).
    { unfold issued; subst s'; cbn. apply Permutation_app_head. rewrite H. rewrite Perm_mid. cbn. apply Permutation_middle. }
    assert (PT : Permutation (tasks s) (tasks s')).
    { unfold tasks. subst s'. cbn [pend]. apply Permutation_app_head. exact PI. }
    constructor; try apply J.
    + rewrite <- (sum_perm _ _ PI). apply J.
    + rewrite <- PI. apply J.
    + subst s'; cbn. rewrite upd_ids by reflexivity. apply J.
    + intros c I. apply upd_In in I as [c0 [I E]]. destruct (i_batch _ _ _ J c0 I) as [P [D [B F]]].
      rewrite (filter_perm (fun t => t_batch t =? b_id c0) _ _ PT) in P || idtac.
      assert (P' : Permutation (b_tasks c0) (b_unpushed c0 ++ of (b_id c0) (tasks s'))) by (rewrite P; apply Permutation_app_head; apply filter_perm; (exact PT || reflexivity)).
      destruct (Nat.eqb_spec (b_id c0) (t_batch t)) as [EQ|NE]; subst c; unfold batch_ok; cbn [b_id b_prio b_tasks b_unpushed b_done b_bytes].
      * split; [exact P'|]. subst s'. cbn [fin]. rewrite of_cons, EQ, Nat.eqb_refl, <- EQ. rewrite sum_cons. cbn [length]. split; [lia|]. split; [lia|exact F].
      * split; [exact P'|]. subst s'. cbn [fin]. rewrite of_cons. destruct (Nat.eqb_spec (t_batch t) (b_id c0)); [congruence|]. auto.
    + intros u I. apply (Permutation_in _ (Permutation_sym PT)) in I. destruct (i_owner _ _ _ J u I) as [c [Ic Ec]].
      eexists. split; [apply upd_In; exists c; split; [exact Ic|reflexivity]|]. destruct (b_id c =? t_batch t); exact Ec.
    + intros C b I. apply upd_In in I as [c0 [I ->]]. pose proof (i_closed _ _ _ J C c0 I). destruct (b_id c0 =? t_batch t); assumption.
  - (* consume *)
    destruct (ready_all _ _ _ _ J H H0) as [P [E1 [E2 E3]]]. destruct (i_batch _ _ _ J b H) as [_ [_ [B _]]].
    destruct (consume_ok _ _ _ _ J H H0) as [fl' [E [S Q]]]. rewrite E in H2. injection H2 as <-.
    constructor; cbn; try apply J; auto.
    + pose proof (i_bytes _ _ _ J) as IB. unfold issued in *. cbn. rewrite !sum_app in *.
      rewrite (sum_perm _ _ (filter_split_perm (fun t => t_batch t =? b_id b) (fin s))) in IB. rewrite sum_app in IB.
      fold (of (b_id b) (fin s)) in IB. rewrite B. lia.
    + pose proof (i_ids _ _ _ J) as N. clear - N. induction (batches s) as [|c l IH]; [constructor|]. cbn in N. inversion N; subst. cbn. destruct (negb (b_id c =? b_id b)); [|auto].
      cbn. constructor; [|auto]. intros I. apply H1. apply in_map_iff in I as [x [Ex Ix]]. apply filter_In in Ix as [Ix _]. rewrite <- Ex. apply in_map. exact Ix.
    + intros c I. apply filter_In in I as [I NE]. apply negb_true_iff, Nat.eqb_neq in NE.
      assert (FE : forall l, of (b_id c) (filter (fun t => negb (t_batch t =? b_id b)) l) = of (b_id c) l).
      { induction l as [|x l IH]; [reflexivity|]. cbn [filter]. destruct (Nat.eqb_spec (t_batch x) (b_id b)); cbn [negb].
        - rewrite of_cons. destruct (Nat.eqb_spec (t_batch x) (b_id c)); [congruence|exact IH].
        - rewrite !of_cons, IH. reflexivity. }
      eapply batch_ok_perm; [apply (i_batch _ _ _ J c I)| |cbn; rewrite FE; reflexivity]. unfold tasks; cbn. rewrite !of_app, FE. reflexivity.
    + intros t I. unfold tasks in I. cbn in I. assert (NB : t_batch t <> b_id b /\ In t (tasks s)).
      { unfold tasks. rewrite !in_app_iff in *. destruct I as [I|[I|[I|I]]].
        - split; [apply (of_nil _ _ E1 t I)|auto].
        - split; [apply (of_nil _ _ E2 t I)|auto].
        - split; [apply (of_nil _ _ E3 t I)|auto].
        - apply filter_In in I as [I X]. apply negb_true_iff, Nat.eqb_neq in X. auto. }
      destruct NB as [NB It]. destruct (i_owner _ _ _ J t It) as [c [Ic Ec]]. exists c. split; [|exact Ec]. apply filter_In. split; [exact Ic|].
      apply negb_true_iff, Nat.eqb_neq. congruence.
    + discriminate.
    + intros C c I. apply filter_In in I as [I _]. apply (i_closed _ _ _ J C c I).
  - (* abandon *)
    constructor; cbn; try apply J.
    + rewrite upd_ids by reflexivity. apply J.
    + intros c I. apply upd_In in I as [c0 [I ->]]. destruct (i_batch _ _ _ J c0 I) as [P [D [B F]]]. destruct (b_id c0 =? b_id b); unfold batch_ok; auto.
    + intros u I. destruct (i_owner _ _ _ J u I) as [c [Ic Ec]]. eexists. split; [apply upd_In; exists c; split; [exact Ic|reflexivity]|]. destruct (b_id c =? b_id b); exact Ec.
    + intros C c I. apply upd_In in I as [c0 [I ->]]. pose proof (i_closed _ _ _ J C c0 I). destruct (b_id c0 =? b_id b); assumption.
  - (* close *)
    constructor; cbn; try apply J; auto.
    + discriminate.
    + intros L. split; [reflexivity|]. apply (i_exit _ _ _ J L).
Qed.
Lemma inv_init : forall cap budget, inv cap budget (init cap budget).
Proof.
  intros. constructor; [cbn; lia|change (sum_bytes (issued (init cap budget))) with 0; cbn; lia|constructor|constructor|constructor|intros b []|intros t []|cbn; discriminate|cbn; discriminate|cbn; discriminate].
Qed.
Lemma inv_steps : forall cap budget s s', inv cap budget s -> steps s s' -> inv cap budget s'.
Proof. intros cap budget s s' J H. induction H; [exact J|]. apply IHsteps. eapply inv_step; eauto. Qed.
Lemma inv_reachable : forall cap budget s, reachable cap budget s -> inv cap budget s.
Proof. intros cap budget s R. eapply inv_steps; [apply inv_init|exact R]. Qed.

(* ---- the theorems ---- *)
(* slots, bytes and priorities are accounted for in every reachable state *)
Lemma accounting : forall cap budget s, reachable cap budget s ->
  iops s + length (run s) = cap /\
  (bytes s + Z.of_nat (sum_bytes (issued s)) = Z.of_nat budget)%Z /\
  StronglySorted le (inflight s) /\ Permutation (inflight s) (map t_prio (issued s)).
Proof. intros cap budget s R. apply inv_reachable in R. split; [apply R|]. split; [apply R|]. split; apply R. Qed.
(* a request leaves the queue only if it is a most urgent one and either nothing
   more urgent is in flight or the budget allows it *)
Lemma admission : forall cap budget s t s', reachable cap budget s -> step s s' -> run s' = t :: run s ->
  (forall u, In u (pend s) -> t_prio t <= t_prio u) /\ In t (pend s) /\ 0 < iops s /\
  ((forall u, In u (issued s) -> t_prio t <= t_prio u) \/ (0 <= bytes s')%Z).
Proof.
  intros cap budget s t s' R H E. apply inv_reachable in R.
  assert (NR : forall (l : list task), l = t :: l -> False) by (intros l X; apply (f_equal (@length task)) in X; cbn in X; lia).
  destruct H; cbn in E; try (exfalso; exact (NR _ E)).
  - injection E as ->. destruct H1 as [I M]. split; [exact M|]. split; [exact I|].
    unfold can_deliver in H2. destruct (Nat.eqb_spec (iops s) 0); [discriminate|]. split; [lia|].
    destruct (min_in_flight (inflight s)) as [m|] eqn:EM.
    + destruct (Nat.leb_spec (t_prio t) m).
      * left. intros u Iu. destruct (min_head _ _ (i_sorted _ _ _ R) EM) as [_ X].
        assert (m <= t_prio u) by (apply X; apply (Permutation_in _ (Permutation_sym (i_perm _ _ _ R))); apply in_map; exact Iu). lia.
      * right. apply negb_true_iff, Z.ltb_ge in H2. cbn. lia.
    + left. intros u Iu. exfalso. apply (in_map t_prio) in Iu. apply (Permutation_in _ (Permutation_sym (i_perm _ _ _ R))) in Iu. destruct (inflight s); [destruct Iu|discriminate].
  - exfalso. rewrite H in E. apply (f_equal (@length task)) in E. cbn in E. rewrite !app_length in E. cbn in E. lia.
Qed.
(* a request at least as urgent as everything in flight only needs a free slot *)
Lemma urgent_admitted : forall cap budget s t, reachable cap budget s -> 0 < iops s ->
  (forall u, In u (issued s) -> t_prio t <= t_prio u) -> can_deliver s t = true.
Proof.
  intros cap budget s t R Hi U. apply inv_reachable in R. unfold can_deliver. destruct (Nat.eqb_spec (iops s) 0); [lia|].
  destruct (min_in_flight (inflight s)) as [m|] eqn:E; [|reflexivity]. destruct (min_head _ _ (i_sorted _ _ _ R) E) as [I _].
  apply (Permutation_in _ (i_perm _ _ _ R)) in I. apply in_map_iff in I as [u [<- I]]. apply U in I. apply Nat.leb_le in I. rewrite I. reflexivity.
Qed.
Lemma no_panic : forall cap budget s, reachable cap budget s -> ~ panics s.
Proof.
  intros cap budget s R [b [I [Rb [_ E]]]]. apply inv_reachable in R. destruct (consume_ok _ _ _ _ R I Rb) as [fl [E' _]]. congruence.
Qed.
(* a response carries the result of every part of the request *)
Lemma response_complete : forall cap budget s b, reachable cap budget s -> In b (batches s) -> ready b ->
  Permutation (b_tasks b) (of (b_id b) (fin s)) /\ b_bytes b = sum_bytes (b_tasks b).
Proof.
  intros cap budget s b R I Rb. apply inv_reachable in R. destruct (ready_all _ _ _ _ R I Rb) as [P _]. split; [exact P|].
  rewrite (sum_perm _ _ P). apply (i_batch _ _ _ R b I).
Qed.
(* nothing outstanding: everything is available again *)
Lemma drained_full : forall cap budget s, reachable cap budget s -> batches s = [] ->
  iops s = cap /\ bytes s = Z.of_nat budget /\ inflight s = [] /\ pend s = [].
Proof.
  intros cap budget s R E. apply inv_reachable in R. assert (N : tasks s = []).
  { destruct (tasks s) as [|t l] eqn:T; [reflexivity|]. destruct (i_owner _ _ _ R t) as [b [I _]]; [rewrite T; left; reflexivity|]. rewrite E in I. destruct I. }
  unfold tasks in N. apply app_eq_nil in N as [N1 N]. apply app_eq_nil in N as [N2 N]. apply app_eq_nil in N as [N3 N4].
  pose proof (i_iops _ _ _ R) as A. pose proof (i_bytes _ _ _ R) as B. pose proof (i_perm _ _ _ R) as P. unfold issued in *. rewrite N2, N3, N4 in *. cbn in *.
  split; [lia|]. split; [change (sum_bytes []) with 0 in B; lia|]. split; [apply Permutation_sym, Permutation_nil in P; exact P|exact N1].
Qed.
(* if nothing is running and the loop cannot proceed, the caller holds a response
   of the most urgent priority in flight *)
Lemma blocked_on_caller : forall cap budget s t, 0 < cap -> inv cap budget s -> run s = [] -> deliv s = [] -> (forall b, In b (batches s) -> b_unpushed b = []) ->
  peek (pend s) t -> can_deliver s t = false ->
  exists b, In b (batches s) /\ ready b /\ (forall u, In u (issued s) -> b_prio b <= t_prio u) /\ b_prio b < t_prio t.
Proof.
  intros cap budget s t Hc J Er Ed Eu [Pt Mt] D. unfold can_deliver in D.
  pose proof (i_iops _ _ _ J) as A. rewrite Er in A. cbn in A. destruct (Nat.eqb_spec (iops s) 0); [lia|].
  destruct (min_in_flight (inflight s)) as [m|] eqn:EM; [|discriminate]. destruct (Nat.leb_spec (t_prio t) m) as [|LT]; [discriminate|].
  destruct (min_head _ _ (i_sorted _ _ _ J) EM) as [Im Mm].
  pose proof (i_perm _ _ _ J) as P. pose proof (Permutation_in _ P Im) as If. apply in_map_iff in If as [f [Ef If]].
  unfold issued in If. rewrite Er, Ed in If. cbn in If. destruct (i_owner _ _ _ J f) as [b [Ib Eb]].
  { unfold tasks. rewrite !in_app_iff. auto. }
  destruct (i_batch _ _ _ J b Ib) as [PB [DB [_ FB]]]. rewrite (Eu b Ib) in PB. cbn in PB. unfold tasks in PB. rewrite !of_app, Er, Ed in PB. cbn in PB.
  change (of (b_id b) []) with (@nil task) in PB. cbn in PB. rewrite Forall_forall in FB.
  assert (Bf : b_prio b = m).
  { rewrite <- Ef. symmetry. apply (FB f). apply (Permutation_in _ (Permutation_sym PB)). apply in_or_app. right. apply of_In. auto. }
  assert (PN : of (b_id b) (pend s) = []).
  { destruct (of (b_id b) (pend s)) as [|u l] eqn:E; [reflexivity|]. exfalso.
    assert (Iu : In u (of (b_id b) (pend s))) by (rewrite E; left; reflexivity). assert (Fu : t_prio u = b_prio b).
    { apply FB. apply (Permutation_in _ (Permutation_sym PB)). left. reflexivity. }
    apply of_In in Iu as [Iu _]. specialize (Mt u Iu). lia. }
  exists b. split; [exact Ib|]. split; [|split; [|lia]].
  - split; [apply Eu; exact Ib|]. rewrite DB, (Permutation_length PB), PN. reflexivity.
  - intros u Iu. rewrite Bf. apply Mm. apply (Permutation_in _ (Permutation_sym P)). apply in_map. exact Iu.
Qed.
(* ---- no deadlock: from every reachable state, every request can be served ---- *)
Definition unpushed (s : st) : nat := fold_right (fun b n => length (b_unpushed b) + n) 0 (batches s).
Definition work (s : st) : nat := 5 * unpushed s + 4 * length (pend s) + 3 * length (run s) + 2 * length (deliv s) + length (batches s).
Definition kept (s : st) : Prop := forall b, In b (batches s) -> b_gone b = false.
Lemma upd_absent : forall i f l, ~ In i (map b_id l) -> upd_batch i f l = l.
Proof.
  intros i f l. induction l as [|x l IH]; intros N; [reflexivity|]. cbn in N. cbn. destruct (Nat.eqb_spec (b_id x) i); [tauto|].
  f_equal. apply IH. tauto.
Qed.
Lemma upd_unpushed : forall l b f k, NoDup (map b_id l) -> In b l -> length (b_unpushed b) = length (b_unpushed (f b)) + k ->
  fold_right (fun b n => length (b_unpushed b) + n) 0 l = fold_right (fun b n => length (b_unpushed b) + n) 0 (upd_batch (b_id b) f l) + k.
Proof.
  induction l as [|x l IH]; intros b f k N I E; [destruct I|]. cbn in N. inversion N; subst. cbn. destruct I as [->|I].
  - rewrite Nat.eqb_refl. fold (upd_batch (b_id b) f l). rewrite upd_absent by assumption. lia.
  - destruct (Nat.eqb_spec (b_id x) (b_id b)) as [EQ|_]; [exfalso; apply H1; rewrite EQ; apply in_map; exact I|].
    fold (upd_batch (b_id b) f l). rewrite (IH b f k) by assumption. lia.
Qed.
Lemma upd_keep : forall l i f, (forall b, b_unpushed (f b) = b_unpushed b) ->
  fold_right (fun b n => length (b_unpushed b) + n) 0 (upd_batch i f l) = fold_right (fun b n => length (b_unpushed b) + n) 0 l.
Proof. induction l as [|x l IH]; intros i f H; [reflexivity|]. cbn. fold (upd_batch i f l). rewrite IH by assumption. destruct (b_id x =? i); rewrite ?H; reflexivity. Qed.
Lemma filter_lt : forall {A} (f : A -> bool) l x, In x l -> f x = false -> length (filter f l) < length l.
Proof.
  induction l as [|y l IH]; intros x I E; [destruct I|]. cbn. destruct I as [->|I].
  - rewrite E. clear. assert (length (filter f l) <= length l) by (induction l as [|z l IH]; cbn; [lia|destruct (f z); cbn; lia]). lia.
  - specialize (IH x I E). destruct (f y); cbn; lia.
Qed.
Lemma filter_unpushed : forall (f : batch -> bool) l, fold_right (fun b n => length (b_unpushed b) + n) 0 (filter f l) <= fold_right (fun b n => length (b_unpushed b) + n) 0 l.
Proof. intros f l. induction l as [|x l IH]; cbn; [lia|]. destruct (f x); cbn; lia. Qed.
Lemma consume_step : forall cap budget s b, inv cap budget s -> kept s -> In b (batches s) -> ready b -> exists s', step s s' /\ work s' < work s /\ kept s'.
Proof.
  intros cap budget s b J K I R. destruct (consume_ok _ _ _ _ J I R) as [fl [E _]]. eexists. split; [eapply s_consume; [exact I|exact R|apply K; exact I|exact E]|]. split.
  - unfold work, unpushed. cbn [pend run deliv batches].
    pose proof (filter_unpushed (fun c => negb (b_id c =? b_id b)) (batches s)).
    assert (length (filter (fun c => negb (b_id c =? b_id b)) (batches s)) < length (batches s)) by (eapply filter_lt; [exact I|cbn; rewrite Nat.eqb_refl; reflexivity]).
    lia.
  - intros c Ic. cbn in Ic. apply filter_In in Ic as [Ic _]. apply K. exact Ic.
Qed.
Lemma progress : forall cap budget s, 0 < cap -> inv cap budget s -> kept s -> batches s <> [] -> exists s', steps s s' /\ work s' < work s /\ kept s'.
Proof.
  intros cap budget s Hc J K NB.
  assert (ONE : forall x, step s x -> steps s x) by (intros x Hx; econstructor; [exact Hx|constructor]).
  destruct (Exists_dec (fun b => b_unpushed b <> []) (batches s)) as [EX|NEX].
  { intros b. destruct (b_unpushed b); [right; auto|left; discriminate]. }
  { apply Exists_exists in EX as [b [I N]]. destruct (b_unpushed b) as [|t rest] eqn:E; [congruence|].
    eexists. split; [apply ONE; eapply s_push; [exact I|exact E]|]. split.
    - unfold work, unpushed. cbn [pend run deliv batches length]. unfold upd_batch at 2. rewrite map_length.
      rewrite (upd_unpushed (batches s) b (fun b0 => {| b_id := b_id b0; b_prio := b_prio b0; b_tasks := b_tasks b0; b_unpushed := rest; b_done := b_done b0; b_bytes := b_bytes b0; b_gone := b_gone b0 |}) 1);
        [|apply J|exact I|cbn; rewrite E; cbn; lia]. lia.
    - intros c Ic. cbn in Ic. apply upd_In in Ic as [c0 [Ic ->]]. pose proof (K c0 Ic). destruct (b_id c0 =? b_id b); assumption. }
  assert (UN : forall b, In b (batches s) -> b_unpushed b = []).
  { intros b I. destruct (b_unpushed b) eqn:E; [reflexivity|]. exfalso. apply NEX. apply Exists_exists. exists b. split; [exact I|congruence]. }
  clear NEX. destruct (run s) as [|t r] eqn:Er.
  2:{ eexists. split; [apply ONE; apply (s_iop_done s [] t r); exact Er|]. split; [|exact K]. unfold work, unpushed. cbn. rewrite Er. cbn. lia. }
  destruct (deliv s) as [|t r] eqn:Ed.
  2:{ eexists. split; [apply ONE; apply (s_deliver s [] t r); exact Ed|]. split.
      - unfold work, unpushed. cbn [pend run deliv batches app]. unfold upd_batch at 2. rewrite map_length. rewrite upd_keep by reflexivity. rewrite Ed. cbn. lia.
      - intros c Ic. cbn in Ic. apply upd_In in Ic as [c0 [Ic ->]]. pose proof (K c0 Ic). destruct (b_id c0 =? t_batch t); assumption. }
  destruct (pend s) as [|u l] eqn:Ep.
  { destruct (batches s) as [|b bs] eqn:EB; [congruence|]. assert (Ib : In b (batches s)) by (rewrite EB; left; reflexivity).
    destruct (consume_step cap budget s b J K Ib) as [s' [St [W K']]].
    - split; [apply UN; left; reflexivity|]. destruct (i_batch _ _ _ J b Ib) as [P [D _]]. rewrite UN in P by (left; reflexivity). unfold tasks in P. rewrite Er, Ed, Ep in P. cbn in P.
      rewrite D, (Permutation_length P). reflexivity.
    - exists s'. split; [apply ONE; exact St|auto]. }
  assert (NP : pend s <> []) by (rewrite Ep; discriminate).
  destruct (loop s) eqn:EL.
  - (* Check *)
    destruct (peek_exists (pend s) NP) as [t Pt]. destruct (can_deliver s t) eqn:CD.
    + destruct (in_split t (pend s)) as [l1 [l2 El]]; [apply Pt|]. eexists. split; [apply ONE; eapply s_pop; [exact EL|exact El|exact Pt|exact CD]|]. split; [|exact K].
      unfold work, unpushed, take_task. cbn. rewrite El, !app_length. cbn. lia.
    + destruct (blocked_on_caller cap budget s t Hc J Er Ed UN Pt CD) as [b [Ib [Rb _]]]. destruct (consume_step cap budget s b J K Ib Rb) as [s' [St X]].
      exists s'. split; [apply ONE; exact St|exact X].
  - (* Wait *)
    destruct (permit s) eqn:EP.
    + pose proof (s_wake s EL EP) as SW. match type of SW with step _ ?x => set (s1 := x) in * end.
      assert (J1 : inv cap budget s1) by (eapply inv_step; eauto). assert (K1 : kept s1) by exact K.
      assert (W1 : work s1 = work s) by reflexivity.
      destruct (peek_exists (pend s) NP) as [t Pt]. destruct (can_deliver s1 t) eqn:CD.
      * destruct (in_split t (pend s)) as [l1 [l2 El]]; [apply Pt|]. eexists. split; [eapply steps_cons; [exact SW|]; eapply steps_cons; [eapply (s_pop s1); [reflexivity|exact El|exact Pt|exact CD]|constructor]|]. split; [|exact K].
        unfold work, unpushed, take_task. cbn. rewrite El, !app_length. cbn. lia.
      * destruct (blocked_on_caller cap budget s1 t Hc J1 Er Ed UN Pt CD) as [b [Ib [Rb _]]]. destruct (consume_step cap budget s1 b J1 K1 Ib Rb) as [s' [St [X Y]]].
        exists s'. split; [eapply steps_cons; [exact SW|]; eapply steps_cons; [exact St|constructor]|]. rewrite W1 in X. auto.
    + destruct (i_wait _ _ _ J EL EP) as [[E _]|[t [Pt CD]]]; [congruence|].
      destruct (blocked_on_caller cap budget s t Hc J Er Ed UN Pt CD) as [b [Ib [Rb _]]]. destruct (consume_step cap budget s b J K Ib Rb) as [s' [St X]].
      exists s'. split; [apply ONE; exact St|exact X].
  - (* Exited *)
    destruct (i_exit _ _ _ J EL) as [_ E]. congruence.
Qed.
Lemma steps_trans : forall s s' s'', steps s s' -> steps s' s'' -> steps s s''.
Proof. intros s s' s'' H. induction H; intros X; [exact X|]. econstructor; eauto. Qed.
(* from every reachable state in which no future was dropped, all requests can
   still be completed and handed to their callers *)
Lemma no_deadlock : forall cap budget s, 0 < cap -> reachable cap budget s -> kept s -> exists s', steps s s' /\ batches s' = [] /\ iops s' = cap /\ bytes s' = Z.of_nat budget.
Proof.
  intros cap budget s Hc R. assert (G : forall n x, work x <= n -> reachable cap budget x -> kept x -> exists s', steps x s' /\ batches s' = []).
  { induction n as [|n IH]; intros x W Rx K; (destruct (batches x) as [|b bs] eqn:E; [exists x; split; [constructor|exact E]|]);
    (destruct (progress cap budget x Hc (inv_reachable _ _ _ Rx) K) as [y [S [L Ky]]]; [rewrite E; discriminate|]).
    - lia.
    - destruct (IH y) as [z [Sz Ez]]; [lia|eapply steps_trans; eauto|exact Ky|]. exists z. split; [eapply steps_trans; eauto|exact Ez]. }
  intros K. destruct (G (work s) s (le_n _) R K) as [z [S E]]. exists z. split; [exact S|]. split; [exact E|].
  assert (Rz : reachable cap budget z) by (eapply steps_trans; eauto). destruct (drained_full _ _ _ Rz E) as [A [B _]]. auto.
Qed.

(* ---- dropped futures ---- *)
(* a step that submits no new request *)
Inductive quiet : st -> st -> Prop :=
| quiet_refl : forall s, quiet s s
| quiet_cons : forall s s' s'', step s s' -> incl (map b_id (batches s')) (map b_id (batches s)) -> quiet s' s'' -> quiet s s''.
Definition ta : task := {| t_batch := 0; t_idx := 0; t_bytes := 10; t_prio := 1 |}.
Definition tb : task := {| t_batch := 1; t_idx := 0; t_bytes := 5; t_prio := 2 |}.
Definition ba : batch := {| b_id := 0; b_prio := 1; b_tasks := [ta]; b_unpushed := []; b_done := 1; b_bytes := 10; b_gone := true |}.
Definition bb : batch := {| b_id := 1; b_prio := 2; b_tasks := [tb]; b_unpushed := []; b_done := 0; b_bytes := 0; b_gone := false |}.
Definition starved : st := {| iops := 2; bytes := 0; pend := [tb]; inflight := [1]; closed := false; loop := Check; permit := true;
  run := []; deliv := []; fin := [ta]; batches := [bb; ba] |}.
Definition stuck (s : st) : Prop := pend s = [tb] /\ run s = [] /\ deliv s = [] /\ bytes s = 0%Z /\ inflight s = [1] /\
  Forall (fun b => b_unpushed b = [] /\ (b_gone b = true \/ b_done b <> length (b_tasks b))) (batches s).
Lemma starved_reachable : reachable 2 10 starved.
Proof.
  unfold reachable, init, starved.
  eapply steps_cons. { apply (s_submit _ 0 1 [10]); [reflexivity|intros []]. }
  eapply steps_cons. { eapply s_push; [left; reflexivity|reflexivity]. }
  cbn. eapply steps_cons. { eapply (s_pop _ [] ta []); [reflexivity|reflexivity|split; [left; reflexivity|intros u [<-|[]]; cbn; lia]|reflexivity]. }
  eapply steps_cons. { apply (s_iop_done _ [] ta []); reflexivity. }
  eapply steps_cons. { apply (s_deliver _ [] ta []); reflexivity. }
  cbn. eapply steps_cons. { eapply s_abandon. left. reflexivity. }
  cbn. eapply steps_cons. { apply (s_submit _ 1 2 [5]); [reflexivity|cbn; intros [H|[]]; discriminate]. }
  eapply steps_cons. { eapply s_push; [left; reflexivity|reflexivity]. }
  cbn. apply steps_refl.
Qed.
Lemma stuck_step : forall s s', stuck s -> step s s' -> incl (map b_id (batches s')) (map b_id (batches s)) -> stuck s'.
Proof.
  intros s s' [Ep [Er [Ed [Eb [Ei F]]]]] H Q. rewrite Forall_forall in F. destruct H.
  - exfalso. apply H0. apply Q. left. reflexivity.
  - exfalso. destruct (F b H) as [E _]. congruence.
  - exfalso. destruct H1 as [I _]. rewrite Ep in I. destruct I as [<-|[]]. unfold can_deliver in H2. rewrite Ei, Eb in H2. cbn in H2.
    destruct (iops s =? 0); discriminate.
  - unfold stuck; cbn. rewrite Forall_forall. auto 10.
  - unfold stuck; cbn. rewrite Forall_forall. auto 10.
  - exfalso. congruence.
  - exfalso. rewrite Er in H. destruct l1; discriminate.
  - exfalso. rewrite Ed in H. destruct l1; discriminate.
  - exfalso. destruct (F b H) as [_ [E|E]]; [congruence|]. destruct H0. congruence.
  - unfold stuck; cbn. repeat (split; [assumption|]). rewrite Forall_forall. intros c I. apply upd_In in I as [c0 [I ->]]. pose proof (F c0 I) as X. destruct (b_id c0 =? b_id b); cbn; [|exact X].
    split; [tauto|left; reflexivity].
  - unfold stuck; cbn. rewrite Forall_forall. auto 10.
Qed.
(* dropping the future of a request before polling it to the end leaks its bytes
   and its priority: a less urgent request then waits for ever although nothing
   is running *)
Lemma abandoned_starves_refuted : exists s, reachable 2 10 s /\ run s = [] /\ deliv s = [] /\ iops s = 2 /\
  (exists b, In b (batches s) /\ b_gone b = false /\ b_tasks b = pend s /\ pend s <> [] /\ sum_bytes (pend s) <= 10) /\
  forall s', quiet s s' -> pend s' = pend s.
Proof.
  exists starved. split; [apply starved_reachable|]. split; [reflexivity|]. split; [reflexivity|]. split; [reflexivity|]. split.
  - exists bb. split; [left; reflexivity|]. split; [reflexivity|]. split; [reflexivity|]. split; [discriminate|]. unfold sum_bytes. cbn. lia.
  - assert (G : forall s s', quiet s s' -> stuck s -> stuck s').
    { intros s s' H. induction H; intros S; [exact S|]. apply IHquiet. eapply stuck_step; eauto. }
    intros s' H. apply G in H; [destruct H as [E _]; exact E|]. unfold stuck. cbn. repeat (split; [reflexivity|]). constructor; [split; [reflexivity|right; discriminate]|]. constructor; [split; [reflexivity|left; reflexivity]|constructor].
Qed.
(* the budget can be exceeded, but only by the most urgent request *)
Example overcommit_ex : exists s, reachable 2 10 s /\ (bytes s < 0)%Z.
Proof.
  eexists. split.
  - unfold reachable, init. eapply steps_cons. { apply (s_submit _ 0 1 [40]); [reflexivity|intros []]. }
    eapply steps_cons. { eapply s_push; [left; reflexivity|reflexivity]. }
    cbn. eapply steps_cons. { eapply (s_pop _ [] {| t_batch := 0; t_idx := 0; t_bytes := 40; t_prio := 1 |} []); [reflexivity|reflexivity|split; [left; reflexivity|intros u [<-|[]]; cbn; lia]|reflexivity]. }
    apply steps_refl.
  - reflexivity.
Qed.
