(* The search of FtsModel returns the best matching rows. *)
From Coq Require Import List Arith NArith ZArith QArith Bool Lia Lqa Permutation Sorted.
From Verif Require Import Lib FtsModel.
Import ListNotations.
Local Open Scope nat_scope.

Definition qsum (l : list Q) : Q := fold_right Qplus 0%Q l.
Lemma qsum_app : forall a b, (qsum (a ++ b) == qsum a + qsum b)%Q.
Proof. induction a; intros; simpl; [ring | rewrite IHa; ring]. Qed.
Lemma qsum_perm : forall a b, Permutation a b -> (qsum a == qsum b)%Q.
Proof. induction 1; simpl; try reflexivity; try (rewrite IHPermutation; reflexivity); [ring | rewrite IHPermutation1; auto]. Qed.
Lemma qsum_zero : forall {A} (f : A -> Q) l, (forall x, In x l -> f x == 0)%Q -> (qsum (map f l) == 0)%Q.
Proof. induction l; intros; simpl; [reflexivity|]. rewrite H by (left; reflexivity). rewrite IHl by (intros; apply H; right; assumption). ring. Qed.
Lemma qsum_le : forall {A} (f g : A -> Q) l, (forall x, In x l -> f x <= g x)%Q -> (qsum (map f l) <= qsum (map g l))%Q.
Proof.
  induction l; intros; simpl; [lra|]. assert (f a <= g a)%Q by (apply H; left; reflexivity).
  assert (qsum (map f l) <= qsum (map g l))%Q by (apply IHl; intros; apply H; right; assumption). lra.
Qed.
Lemma qsum_eq : forall {A} (f g : A -> Q) l, (forall x, In x l -> f x == g x)%Q -> (qsum (map f l) == qsum (map g l))%Q.
Proof.
  induction l; intros; simpl; [reflexivity|]. rewrite (H a) by (left; reflexivity). rewrite IHl by (intros; apply H; right; assumption). reflexivity.
Qed.

Lemma leading_lt : forall {A} (f : A -> bool) l k x, k < leading f l -> nth_error l k = Some x -> f x = true.
Proof.
  induction l; simpl; intros; [lia|]. destruct (f a) eqn:E; [|lia]. destruct k; simpl in *; [congruence|].
  eapply IHl; eauto. lia.
Qed.
Lemma leading_at : forall {A} (f : A -> bool) l x, nth_error l (leading f l) = Some x -> f x = false.
Proof. induction l; simpl; intros; [discriminate|]. destruct (f a) eqn:E; simpl in H; [auto | congruence]. Qed.
Lemma leading_le : forall {A} (f : A -> bool) l, leading f l <= length l.
Proof. induction l; simpl; [lia|]. destruct (f a); lia. Qed.
Lemma nth_skipn : forall {A} (l : list A) i k, nth_error (skipn i l) k = nth_error l (i + k).
Proof. induction l; intros; destruct i; simpl; auto. destruct k; reflexivity. Qed.

(* ---- what a search should find ---- *)
(* [res] is a choice of [k] best among the rows of [M] *)
Definition is_top (k : nat) (M : N -> Prop) (score : N -> Q) (res : list (N * Q)) : Prop :=
  NoDup (map fst res)
  /\ length res <= k
  /\ (forall d s, In (d, s) res -> M d /\ (s == score d)%Q)
  /\ (forall d, M d -> ~ In d (map fst res) -> length res = k /\ forall d' s', In (d', s') res -> (score d <= s')%Q).

  Lemma sorted_nth : forall (docs : list (N * Q)) i j a b, StronglySorted N.lt (map fst docs) -> nth_error docs i = Some a -> nth_error docs j = Some b -> i < j -> (fst a < fst b)%N.
  Proof.
    induction docs; intros; [destruct i; discriminate|]. simpl in H. apply StronglySorted_inv in H. destruct H as [S F].
    destruct j; [lia|]. destruct i; simpl in *.
    - injection H0 as ->. rewrite Forall_forall in F. apply F. apply in_map. eapply nth_error_In; eauto.
    - eapply IHdocs; eauto. lia.
  Qed.
Lemma list_sum_perm : forall a b, Permutation a b -> list_sum a = list_sum b.
Proof. induction 1; simpl; unfold list_sum in *; simpl in *; lia. Qed.

Section Search.
  Variable sel : N -> bool.
  Variable idf : nat -> Q.
  Variable scorer : N -> Q -> Q.
  Variable scale : Q -> Q.
  Variable srt : list piter -> list piter.
  Variable popmin : list (N * Q) -> list (N * Q).

  (* the part of a row's score that one list gives *)
  Definition gives (p : plist) (d : N) : Q := qsum (map (fun e => if N.eqb (fst e) d then idf (pl_len p) * scorer d (snd e) else 0)%Q (pl_docs p)).
  Definition row_score (lists : list plist) (d : N) : Q := qsum (map (fun p => gives p d) lists).
  Definition bound_of (p : plist) : Q := match pl_max p with Some m => m | None => idf (pl_len p) end.
  Definition list_ok (p : plist) : Prop :=
    StronglySorted N.lt (map fst (pl_docs p))
    /\ forall r f, In (r, f) (pl_docs p) -> (0 <= idf (pl_len p) * scorer r f <= bound_of p)%Q.
  Definition matches (lists : list plist) (d : N) : Prop := sel d = true /\ exists p, In p lists /\ In d (map fst (pl_docs p)).

  Lemma gives_none : forall p d, ~ In d (map fst (pl_docs p)) -> (gives p d == 0)%Q.
  Proof.
    intros. unfold gives. apply qsum_zero. intros x I. destruct (N.eqb_spec (fst x) d); [|reflexivity]. exfalso. apply H. subst. apply in_map. auto.
  Qed.
  Lemma gives_at : forall p d j f, list_ok p -> nth_error (pl_docs p) j = Some (d, f) -> (gives p d == idf (pl_len p) * scorer d f)%Q.
  Proof.
    intros p d j f [S _] E. unfold gives. set (g := fun e : N * Q => _). generalize dependent (pl_docs p). clear -g.
    intros docs S. revert j f. induction docs; intros; [destruct j; discriminate|]. simpl in S. apply StronglySorted_inv in S. destruct S as [S F].
    destruct j; simpl in E.
    - injection E as ->. simpl. rewrite qsum_zero; [unfold g; simpl; rewrite N.eqb_refl; ring|]. intros x I. unfold g.
      destruct (N.eqb_spec (fst x) d); [|reflexivity]. exfalso. rewrite Forall_forall in F. assert (d < fst x)%N by (apply F; apply in_map; auto). lia.
    - simpl. rewrite (IHdocs S j f E). unfold g at 1. destruct (N.eqb_spec (fst a) d); [|ring]. exfalso.
      rewrite Forall_forall in F. assert (fst a < d)%N by (apply F; apply (in_map fst _ (d, f)); eapply nth_error_In; eauto). lia.
  Qed.
  Lemma gives_nonneg : forall p d, list_ok p -> (0 <= gives p d)%Q.
  Proof.
    intros p d [_ B]. unfold gives. rewrite <- (qsum_zero (fun _ : N * Q => 0%Q) (pl_docs p)) by (intros; reflexivity). apply qsum_le.
    intros [r f] I. simpl. destruct (N.eqb_spec r d); [subst; apply B; auto | lra].
  Qed.
  Lemma gives_bound : forall p d, list_ok p -> In d (map fst (pl_docs p)) -> (gives p d <= bound_of p)%Q.
  Proof.
    intros p d O I. apply in_map_iff in I. destruct I as [[r f] [E I]]. simpl in E. subst r. destruct (In_nth_error _ _ I) as [j E].
    rewrite (gives_at _ _ _ _ O E). apply O. auto.
  Qed.
  Lemma score_nonneg : forall lists d, Forall list_ok lists -> (0 <= row_score lists d)%Q.
  Proof.
    intros. unfold row_score. rewrite <- (qsum_zero (fun _ : plist => 0%Q) lists) by (intros; reflexivity). apply qsum_le.
    intros p I. apply gives_nonneg. rewrite Forall_forall in H. auto.
  Qed.

  (* ---- iterators ---- *)
  Definition good (i : piter) : Prop :=
    list_ok (it_list i) /\ it_bound i = bound_of (it_list i) /\ it_index i <= pl_len (it_list i) /\ forall r f, it_doc i = Some (r, f) -> sel r = true.
  Definition key (i : piter) : Z * plist := (it_position i, it_list i).
  (* the iterator has not passed the row *)
  Definition reach (i : piter) (d : N) : Prop := forall j f, nth_error (pl_docs (it_list i)) j = Some (d, f) -> it_index i <= j.
  Definition left_of (i : piter) : nat := pl_len (it_list i) - it_index i.
  Definition measure (l : list piter) : nat := list_sum (map left_of l).

  Lemma live_row : forall i, is_live i = true -> exists r f, it_doc i = Some (r, f) /\ it_row i = Some r.
  Proof using. unfold is_live, it_row. intros i H. destruct (it_doc i) as [[r f]|]; [|discriminate]. exists r, f. auto. Qed.
  Lemma live_index : forall i, is_live i = true -> it_index i < pl_len (it_list i).
  Proof. intros i H. apply live_row in H. destruct H as [r [f [E _]]]. unfold it_doc in E. apply nth_error_Some. unfold pl_len. rewrite E. discriminate. Qed.
  Lemma dead_index : forall i, good i -> is_live i = false -> it_index i = pl_len (it_list i).
  Proof.
    intros i [_ [_ [L _]]] H. unfold is_live, it_doc in H. destruct (nth_error (pl_docs (it_list i)) (it_index i)) eqn:E; [discriminate|].
    apply nth_error_None in E. unfold pl_len in *. lia.
  Qed.
  Lemma new_good : forall q p, list_ok p -> good (it_new sel idf q p).
  Proof.
    intros q p O. unfold good, it_new. simpl. repeat split; auto; try (apply O; auto).
    - apply leading_le.
    - intros r f E. unfold it_doc in E. simpl in E. apply leading_at in E. simpl in E. destruct (sel r); auto; discriminate.
  Qed.
  Lemma new_reach : forall q p d, sel d = true -> reach (it_new sel idf q p) d.
  Proof.
    intros q p d S j f E. simpl. destruct (le_lt_dec (leading (fun d0 : N * Q => negb (sel (fst d0))) (pl_docs p)) j); auto.
    eapply leading_lt in l; [|exact E]. simpl in l. rewrite S in l. discriminate.
  Qed.
  (* what next does to the index *)
  Lemma next_index : forall least i, it_index i <= it_index (it_next sel least i).
  Proof. intros. unfold it_next. simpl. lia. Qed.
  Lemma next_good : forall least i, good i -> good (it_next sel least i).
  Proof.
    intros least i [O [B [L G]]]. unfold good, it_next. simpl. repeat split; auto; try (apply O; auto).
    - pose proof (leading_le (fun d : N * Q => N.ltb (fst d) least) (skipn (it_index i) (pl_docs (it_list i)))) as X.
      set (k := it_index i + _) in *. pose proof (leading_le (fun d : N * Q => negb (sel (fst d))) (skipn k (pl_docs (it_list i)))) as Y.
      rewrite skipn_length in X, Y. unfold pl_len in *. lia.
    - intros r f E. unfold it_doc in E. simpl in E. rewrite <- nth_skipn in E. apply leading_at in E. simpl in E. destruct (sel r); auto; discriminate.
  Qed.
  Lemma next_reach : forall least i d, reach i d -> sel d = true -> (least <= d)%N -> reach (it_next sel least i) d.
  Proof.
    intros least i d R S L j f E. unfold it_next in *. simpl in *. pose proof (R _ _ E) as I.
    set (k := it_index i + leading (fun d0 : N * Q => N.ltb (fst d0) least) (skipn (it_index i) (pl_docs (it_list i)))).
    assert (K : k <= j).
    { destruct (le_lt_dec k j); auto. exfalso. unfold k in l.
      assert (X : j - it_index i < leading (fun d0 : N * Q => N.ltb (fst d0) least) (skipn (it_index i) (pl_docs (it_list i)))) by lia.
      eapply leading_lt in X; [|rewrite nth_skipn; replace (it_index i + (j - it_index i)) with j by lia; exact E].
      simpl in X. apply N.ltb_lt in X. lia. }
    destruct (le_lt_dec (k + leading (fun d0 : N * Q => negb (sel (fst d0))) (skipn k (pl_docs (it_list i)))) j); auto. exfalso.
    assert (X : j - k < leading (fun d0 : N * Q => negb (sel (fst d0))) (skipn k (pl_docs (it_list i)))) by lia.
    eapply leading_lt in X; [|rewrite nth_skipn; replace (k + (j - k)) with j by lia; exact E].
    simpl in X. rewrite S in X. discriminate.
  Qed.
  Lemma next_moves : forall least i r, it_row i = Some r -> (r < least)%N -> it_index i < it_index (it_next sel least i).
  Proof.
    intros least i r E L. unfold it_next. simpl. unfold it_row, it_doc in E.
    destruct (skipn (it_index i) (pl_docs (it_list i))) eqn:K.
    - rewrite <- (Nat.add_0_r (it_index i)) in E. rewrite <- nth_skipn, K in E. discriminate.
    - rewrite <- (Nat.add_0_r (it_index i)) in E. rewrite <- nth_skipn, K in E. simpl in E. injection E as E. subst r.
      simpl. rewrite (proj2 (N.ltb_lt _ _) L). lia.
  Qed.

  (* an iterator that has not passed a row of its list is at a row that is not greater *)
  Lemma reach_row : forall i d, good i -> reach i d -> In d (map fst (pl_docs (it_list i))) -> is_live i = true /\ forall r, it_row i = Some r -> (r <= d)%N.
  Proof.
    intros i d [O [_ [L _]]] R I. apply in_map_iff in I. destruct I as [[d' f] [E I]]. simpl in E. subst d'. apply In_nth_error in I. destruct I as [j E].
    pose proof (R _ _ E) as J. assert (X : exists e, nth_error (pl_docs (it_list i)) (it_index i) = Some e).
    { destruct (nth_error (pl_docs (it_list i)) (it_index i)) eqn:X; eauto. apply nth_error_None in X.
      assert (nth_error (pl_docs (it_list i)) j <> None) by (rewrite E; discriminate). apply nth_error_Some in H. lia. }
    destruct X as [e X]. split; [unfold is_live, it_doc; rewrite X; reflexivity|]. intros r H. unfold it_row, it_doc in H. rewrite X in H. simpl in H. injection H as <-.
    destruct (Nat.eq_dec (it_index i) j); [subst; rewrite X in E; injection E as ->; simpl; lia|].
    pose proof (sorted_nth _ _ _ _ _ (proj1 O) X E ltac:(lia)). simpl in H. lia.
  Qed.
  Lemma dead_gives : forall i d, good i -> reach i d -> is_live i = false -> (gives (it_list i) d == 0)%Q.
  Proof.
    intros i d G R L. apply gives_none. intro I. destruct (reach_row _ _ G R I). congruence.
  Qed.
  Lemma beyond_gives : forall i d r, good i -> reach i d -> it_row i = Some r -> (d < r)%N -> (gives (it_list i) d == 0)%Q.
  Proof.
    intros i d r G R E L. apply gives_none. intro I. destruct (reach_row _ _ G R I) as [_ X]. specialize (X _ E). lia.
  Qed.
  Lemma at_gives : forall i r f, good i -> it_doc i = Some (r, f) -> (gives (it_list i) r == idf (pl_len (it_list i)) * scorer r f)%Q.
  Proof. intros i r f [O _] E. eapply gives_at; eauto. Qed.
  Lemma live_bound : forall i d, good i -> is_live i = true -> (gives (it_list i) d <= it_bound i)%Q /\ (0 <= it_bound i)%Q.
  Proof.
    intros i d [O [B _]] L. rewrite B. apply live_row in L. destruct L as [r [f [E _]]]. unfold it_doc in E. apply nth_error_In in E.
    assert (0 <= bound_of (it_list i))%Q. { destruct O as [_ O]. specialize (O _ _ E). lra. }
    split; auto. destruct (in_dec N.eq_dec d (map fst (pl_docs (it_list i)))); [apply gives_bound; auto|]. rewrite gives_none by auto. auto.
  Qed.

  (* ---- sorted iterators ---- *)
  Definition sorted (l : list piter) : Prop := StronglySorted (fun a b => it_leb a b = true) l.
  Lemma sorted_rows : forall a l, sorted (a :: l) -> forall b x y, In b l -> it_row a = Some x -> it_row b = Some y -> (x <= y)%N.
  Proof using.
    intros a l S b x y I X Y. apply StronglySorted_inv in S. destruct S as [_ F]. rewrite Forall_forall in F. specialize (F _ I).
    unfold it_leb in F. rewrite X, Y in F. apply N.leb_le in F. auto.
  Qed.
  Definition alive (l : list piter) : Prop := Forall (fun i => is_live i = true) l.

  Lemma pop_dead_spec : forall l, sorted l -> exists dead, l = pop_dead l ++ dead /\ alive (pop_dead l) /\ Forall (fun i => is_live i = false) dead.
  Proof.
    intros l S. unfold pop_dead.
    assert (D : forall m, exists t, m = t ++ drop_dead m /\ Forall (fun i => is_live i = false) t /\ match drop_dead m with [] => True | i :: _ => is_live i = true end).
    { induction m as [|i m IH]; simpl; [exists []; auto|]. destruct (is_live i) eqn:E; [exists []; auto|].
      destruct IH as [t [A [B C]]]. exists (i :: t). simpl. split; [f_equal; exact A | split; [constructor; auto | exact C]]. }
    destruct (D (rev l)) as [t [A [B C]]]. exists (rev t).
    assert (L : l = rev (drop_dead (rev l)) ++ rev t) by (rewrite <- rev_app_distr, <- A, rev_involutive; reflexivity).
    split; auto. split; [|apply Forall_forall; intros x I; apply in_rev in I; rewrite Forall_forall in B; auto].
    destruct (drop_dead (rev l)) as [|i m] eqn:E; [simpl; constructor|]. simpl in L |- *.
    apply Forall_app. split; [|constructor; auto].
    apply Forall_forall. intros x I. rewrite L in S. rewrite <- app_assoc in S. simpl in S.
    assert (X : it_leb x i = true).
    { clear -S I. induction (rev m); [destruct I|]. simpl in S. apply StronglySorted_inv in S. destruct S as [S F]. destruct I as [->|I]; auto.
      rewrite Forall_forall in F. apply F. apply in_or_app. right. left. auto. }
    apply live_row in C. destruct C as [r [f [_ C]]]. unfold it_leb in X. rewrite C in X. unfold it_row in X. unfold is_live. destruct (it_doc x); [reflexivity | exact X].
  Qed.
  Lemma sorted_app_l : forall a b, sorted (a ++ b) -> sorted a.
  Proof.
    induction a; intros; [constructor|]. simpl in H. apply StronglySorted_inv in H. destruct H. constructor; [eapply IHa; eauto|].
    apply Forall_app in H0. tauto.
  Qed.

  Lemma pick_spec : forall least l i best picked k,
    pick least l i best picked = Some k -> k = picked \/ (i <= k /\ exists p r, nth_error l (k - i) = Some p /\ it_row p = Some r /\ (r < least)%N).
  Proof.
    induction l; simpl; intros; [left; congruence|]. destruct (it_row a) eqn:R; [|discriminate]. destruct (N.leb_spec least n); [left; congruence|].
    destruct (match best with Some b => _ | None => _ end).
    - apply IHl in H. right. destruct H as [->|[L [p [r [E X]]]]].
      + split; [lia|]. exists a, n. rewrite Nat.sub_diag. auto.
      + split; [lia|]. exists p, r. replace (k - i) with (S (k - S i)) by lia. auto.
    - apply IHl in H. destruct H as [->|[L [p [r [E X]]]]]; [left; auto|]. right. split; [lia|]. exists p, r. replace (k - i) with (S (k - S i)) by lia. auto.
  Qed.
  Lemma pick_total : forall least l i best picked, alive l -> exists k, pick least l i best picked = Some k.
  Proof.
    induction l; simpl; intros; [eauto|]. inversion_clear H. apply live_row in H0. destruct H0 as [r [f [_ R]]]. rewrite R.
    destruct (N.leb least r); [eauto|]. destruct (match best with Some b => _ | None => _ end); apply IHl; auto.
  Qed.
  Lemma pick_head : forall least a l r, alive (a :: l) -> it_row a = Some r -> (r < least)%N ->
    exists k p r, pick least (a :: l) 0 None 0 = Some k /\ nth_error (a :: l) k = Some p /\ it_row p = Some r /\ (r < least)%N.
  Proof.
    intros least a l r A R L. destruct (pick_total least (a :: l) 0 None 0 A) as [k K]. exists k. pose proof K as K'.
    simpl in K'. rewrite R in K'. destruct (N.leb_spec least r); [lia|]. apply pick_spec in K'. destruct K' as [->|[J [p [r' [E X]]]]].
    - exists a, r. auto.
    - exists p, r'. split; auto. destruct k; [lia|]. simpl in *. rewrite Nat.sub_0_r in E. auto.
  Qed.

  Lemma measure_perm : forall a b, Permutation a b -> measure a = measure b.
  Proof. intros. unfold measure. apply list_sum_perm. apply Permutation_map. auto. Qed.
  Lemma measure_app : forall a b, measure (a ++ b) = measure a + measure b.
  Proof. intros. unfold measure. rewrite map_app, list_sum_app. auto. Qed.

  Lemma measure_cons : forall a l, measure (a :: l) = left_of a + measure l.
  Proof. reflexivity. Qed.

  Hypothesis srt_perm : forall l, Permutation (srt l) l.
  Hypothesis srt_sorted : forall l, StronglySorted (fun a b => it_leb a b = true) (srt l).
  Hypothesis pop_ok : forall l, l <> [] -> exists x, Permutation l (x :: popmin l) /\ forall y, In y l -> (snd x <= snd y)%Q.
  Hypothesis scale_ok : forall q, (0 <= q -> scale q <= q)%Q.

  (* move_term moves one iterator that is before the row *)
  Lemma move_spec : forall least a l r, alive (a :: l) -> it_row a = Some r -> (r < least)%N ->
    exists l' dead k i ri, move_term sel srt least (a :: l) = Some l' /\ sorted l' /\ alive l' /\ Forall (fun i => is_live i = false) dead
      /\ nth_error (a :: l) k = Some i /\ it_row i = Some ri /\ (ri < least)%N
      /\ Permutation (l' ++ dead) (firstn k (a :: l) ++ it_next sel least i :: skipn (S k) (a :: l)).
  Proof.
    intros least a l r A R L. destruct (pick_head least a l r A R L) as [k [i [ri [K [E [RI LI]]]]]].
    unfold move_term. rewrite K, E. set (m := firstn k (a :: l) ++ it_next sel least i :: skipn (S k) (a :: l)).
    destruct (pop_dead_spec (srt m) (srt_sorted m)) as [dead [X [Y Z]]].
    exists (pop_dead (srt m)), dead, k, i, ri. split; [reflexivity|].
    split; [eapply sorted_app_l; unfold sorted; rewrite <- X; apply srt_sorted|].
    split; [exact Y|]. split; [exact Z|]. split; [exact E|]. split; [exact RI|]. split; [exact LI|].
    rewrite <- X. apply srt_perm.
  Qed.

  (* ---- the invariant ---- *)
  Section Loop.
    Variable keys : list (Z * plist).
    Definition lists := map snd keys.
    Hypothesis lists_ok : Forall list_ok lists.

    Definition whole (l dead : list piter) : Prop :=
      Permutation (map key (l ++ dead)) keys /\ Forall good (l ++ dead) /\ alive l /\ Forall (fun i => is_live i = false) dead.
    Definition past (cur : option N) (d : N) : Prop := match cur with Some c => (d <= c)%N | None => False end.
    Definition pending (cur : option N) (all : list piter) (d : N) : Prop := ~ past cur d /\ forall i, In i all -> reach i d.
    (* every matching row is settled or still to come *)
    Definition covered (ev : N -> Prop) (threshold : Q) (cur : option N) (all : list piter) : Prop :=
      forall d, matches lists d -> ev d \/ (row_score lists d < threshold)%Q \/ pending cur all d.

    Lemma whole_score : forall l dead d, whole l dead -> (row_score lists d == qsum (map (fun i => gives (it_list i) d) (l ++ dead)))%Q.
    Proof.
      intros l dead d [P _]. unfold row_score, lists. apply Permutation_sym in P. rewrite (qsum_perm _ _ (Permutation_map (fun p => gives p d) (Permutation_map snd P))).
      rewrite !map_map. reflexivity.
    Qed.
    Lemma whole_live_score : forall l dead d, whole l dead -> (forall i, In i (l ++ dead) -> reach i d) -> (row_score lists d == qsum (map (fun i => gives (it_list i) d) l))%Q.
    Proof.
      intros l dead d W R. rewrite (whole_score l dead d W). rewrite map_app, qsum_app. rewrite (qsum_zero _ dead); [ring|].
      intros i I. destruct W as [_ [G [_ D]]]. rewrite Forall_forall in G, D. apply dead_gives; [apply G; apply in_or_app; auto | apply R; apply in_or_app; auto | apply D; auto].
    Qed.

    (* moving one iterator keeps the invariant when the rows it passes are settled *)
    Lemma move_whole : forall l dead k i least l' dead', whole l dead -> nth_error l k = Some i ->
      alive l' -> Forall (fun i => is_live i = false) dead' -> Permutation (l' ++ dead') (firstn k l ++ it_next sel least i :: skipn (S k) l) ->
      whole l' (dead' ++ dead) /\ (forall ri, it_row i = Some ri -> (ri < least)%N -> measure l' < measure l)
      /\ (forall d, (forall i, In i (l ++ dead) -> reach i d) -> sel d = true -> (least <= d)%N -> forall i, In i (l' ++ dead' ++ dead) -> reach i d).
    Proof.
      intros l dead k i least l' dead' [P [G [A D]]] E A' D' Q.
      assert (SP : l = firstn k l ++ i :: skipn (S k) l).
      { rewrite <- (firstn_skipn k l) at 1. f_equal. clear -E. revert k E. induction l; intros; destruct k; simpl in *; try discriminate; [congruence|]. apply IHl. auto. }
      set (x := firstn k l) in *. set (y := skipn (S k) l) in *. clearbody x y.
      assert (Q' : Permutation (l' ++ dead' ++ dead) ((x ++ it_next sel least i :: y) ++ dead)) by (rewrite app_assoc; apply Permutation_app_tail; auto).
      assert (II : In i (l ++ dead)) by (apply in_or_app; left; rewrite SP; apply in_or_app; right; left; auto).
      split; [|split].
      - split; [|split; [|split; [auto | apply Forall_app; auto]]].
        + rewrite (Permutation_map key Q'). rewrite <- P, SP. rewrite !map_app. simpl. reflexivity.
        + apply Forall_forall. intros z I. apply (Permutation_in _ Q') in I. rewrite SP in G. rewrite Forall_forall in G.
          apply in_app_or in I. destruct I as [I|I]; [|apply G; apply in_or_app; auto]. apply in_app_or in I.
          destruct I as [I|[<-|I]]; [apply G; apply in_or_app; left; apply in_or_app; auto | | apply G; apply in_or_app; left; apply in_or_app; right; right; auto].
          apply next_good. apply G. apply in_or_app; left. apply in_or_app. right. left. auto.
      - intros ri R L. pose proof (next_moves _ _ _ R L) as N1.
        assert (GI : good i) by (rewrite Forall_forall in G; auto). assert (NG := next_good least i GI). destruct NG as [_ [_ [NL _]]].
        assert (M : measure (l' ++ dead') = measure (x ++ it_next sel least i :: y)) by (apply measure_perm; auto).
        assert (LT : left_of (it_next sel least i) < left_of i) by (unfold left_of; change (it_list (it_next sel least i)) with (it_list i) in *; lia).
        rewrite measure_app in M. rewrite SP. rewrite !measure_app, ?measure_cons in M. rewrite measure_app, measure_cons. lia.
      - intros d R S L z I. apply (Permutation_in _ Q') in I. rewrite SP in R.
        apply in_app_or in I. destruct I as [I|I]; [|apply R; apply in_or_app; auto]. apply in_app_or in I.
        destruct I as [I|[<-|I]]; [apply R; apply in_or_app; left; apply in_or_app; auto | | apply R; apply in_or_app; left; apply in_or_app; right; right; auto].
        apply next_reach; auto. apply R. apply in_or_app; left. apply in_or_app. right. left. auto.
    Qed.

    (* ---- the pivot ---- *)
    Lemma pivot_in : forall t l acc p, find_pivot t acc l = Some p -> In p l.
    Proof. induction l; simpl; intros; [discriminate|]. destruct (Qle_bool t (acc + it_bound a)); [left; congruence | right; eauto]. Qed.
    (* a row before the pivot cannot reach the threshold *)
    Lemma pivot_prunes : forall t l acc p r d, find_pivot t acc l = Some p -> sorted l -> alive l -> Forall good l -> it_row p = Some r -> (d < r)%N ->
      (forall i, In i l -> reach i d) -> (acc < t)%Q -> (acc + qsum (map (fun i => gives (it_list i) d) l) < t)%Q.
    Proof.
      induction l as [|a l IH]; simpl; intros acc p r d F S A G R L RE AC; [discriminate|].
      inversion_clear A as [|? ? LA A']. inversion_clear G as [|? ? GA G'].
      destruct (Qle_bool t (acc + it_bound a)) eqn:E.
      - injection F as ->. rewrite (beyond_gives p d r) by auto. rewrite (qsum_zero _ l); [lra|].
        intros i I. rewrite Forall_forall in A', G'. destruct (live_row _ (A' _ I)) as [ri [fi [_ RI]]].
        pose proof (sorted_rows _ _ S _ _ _ I R RI). apply (beyond_gives i d ri); auto. lia.
      - assert (acc + it_bound a < t)%Q. { destruct (Qlt_le_dec (acc + it_bound a) t); auto. apply Qle_bool_iff in q. congruence. }
        apply StronglySorted_inv in S. destruct S as [S _].
        specialize (IH (acc + it_bound a)%Q p r d F S A' G' R L (fun i I => RE i (or_intror I)) H).
        destruct (live_bound a d GA LA). lra.
    Qed.
    Lemma no_pivot : forall t l acc d, find_pivot t acc l = None -> alive l -> Forall good l -> l <> [] -> (acc + qsum (map (fun i => gives (it_list i) d) l) < t)%Q.
    Proof.
      induction l as [|a l IH]; simpl; intros acc d F A G NE; [congruence|].
      inversion_clear A as [|? ? LA A']. inversion_clear G as [|? ? GA G'].
      destruct (Qle_bool t (acc + it_bound a)) eqn:E; [discriminate|].
      assert (acc + it_bound a < t)%Q. { destruct (Qlt_le_dec (acc + it_bound a) t); auto. apply Qle_bool_iff in q. congruence. }
      destruct (live_bound a d GA LA). destruct l; [simpl; lra|].
      specialize (IH (acc + it_bound a)%Q d F A' G' ltac:(discriminate)). lra.
    Qed.
    Lemma whole_matches : forall l dead i r, whole l dead -> In i l -> it_row i = Some r -> matches lists r.
    Proof using.
      intros l dead i r [P [G _]] I R. unfold it_row in R. destruct (it_doc i) as [[r' f]|] eqn:E; [|discriminate]. simpl in R. injection R as ->.
      rewrite Forall_forall in G. assert (J : In i (l ++ dead)) by (apply in_or_app; auto). split; [apply (G _ J) with f; auto|].
      exists (it_list i). split; [|apply (in_map fst _ (r, f)); eapply nth_error_In; exact E].
      unfold lists. change (it_list i) with (snd (key i)). apply in_map. eapply Permutation_in; [exact P|]. apply in_map. auto.
    Qed.

    (* ---- next ---- *)
    Lemma next_spec : forall ev t cur fuel l dead, measure l < fuel -> sorted l -> whole l dead -> covered ev t cur (l ++ dead) ->
      exists res l' dead', next_loop sel srt fuel t cur l = Some (res, l') /\ sorted l' /\ whole l' dead' /\ covered ev t cur (l' ++ dead')
        /\ (l' = l \/ measure l' < measure l)
        /\ match res with
           | None => forall d, matches lists d -> ev d \/ (row_score lists d < t)%Q
           | Some r => ~ past cur r /\ exists f m, l' = f :: m /\ it_row f = Some r
           end.
    Proof.
      intros ev t cur. induction fuel as [|fuel IH]; intros l dead M S W C; [lia|]. simpl.
      destruct (find_pivot t 0 l) as [p|] eqn:F.
      2: { exists None, l, dead. split; [reflexivity|]. split; [auto|]. split; [auto|]. split; [auto|]. split; [left; auto|].
           intros d D. destruct (C d D) as [X|[X|X]]; auto. right. destruct X as [_ X]. rewrite (whole_live_score l dead d W X).
           destruct W as [P [G [A DD]]]. destruct l as [|a l].
           - exfalso. destruct D as [_ [pl [I J]]]. unfold lists in I. apply in_map_iff in I. destruct I as [k [E I]].
             apply Permutation_sym in P. apply (Permutation_in _ P) in I. apply in_map_iff in I. destruct I as [i [E' I]]. simpl in I.
             simpl in G. rewrite Forall_forall in G, DD. assert (pl = it_list i) by (subst k pl; reflexivity). subst pl.
             destruct (reach_row i d (G _ I) (X _ I)) as [Y _]; [rewrite <- H; auto|]. rewrite (DD _ I) in Y. discriminate.
           - pose proof (no_pivot t (a :: l) 0%Q d F A (proj1 (proj1 (Forall_app _ _ _) G)) ltac:(discriminate)). lra. }
      pose proof (pivot_in _ _ _ _ F) as PI. assert (A := proj1 (proj2 (proj2 W))). assert (AP := A). unfold alive in AP. rewrite Forall_forall in AP.
      destruct (live_row _ (AP _ PI)) as [r [fr [_ R]]]. rewrite R.
      destruct l as [|a l]; [destruct PI|]. destruct (live_row a (AP a (or_introl eq_refl))) as [r0 [f0 [_ R0]]].
      assert (LE : (r0 <= r)%N). { destruct PI as [->|PI]; [rewrite R in R0; injection R0 as ->; lia|]. eapply sorted_rows; eauto. }
      assert (MV : forall least, (r0 < least)%N -> (forall d, matches lists d -> pending cur ((a :: l) ++ dead) d -> (d < least)%N -> (row_score lists d < t)%Q) ->
        exists res l' dead', match move_term sel srt least (a :: l) with None => None | Some l => next_loop sel srt fuel t cur l end = Some (res, l')
          /\ sorted l' /\ whole l' dead' /\ covered ev t cur (l' ++ dead') /\ (l' = a :: l \/ measure l' < measure (a :: l))
          /\ match res with
             | None => forall d, matches lists d -> ev d \/ (row_score lists d < t)%Q
             | Some r => ~ past cur r /\ exists f m, l' = f :: m /\ it_row f = Some r
             end).
      { intros least L PR. destruct (move_spec least a l r0 A R0 L) as [l1 [d1 [k [i [ri [E1 [S1 [A1 [D1 [K [RI [LI P1]]]]]]]]]]]].
        destruct (move_whole (a :: l) dead k i least l1 d1 W K A1 D1 P1) as [W1 [M1 RE1]]. specialize (M1 _ RI LI). rewrite E1.
        destruct (IH l1 (d1 ++ dead) ltac:(lia) S1 W1) as [res [l' [dead' [X1 [X2 [X3 [X4 [X5 X6]]]]]]]].
        - intros d D. destruct (C d D) as [X|[X|X]]; auto. right. destruct (N.ltb_spec d least); [left; apply PR; auto|]. right.
          split; [apply X|]. intros z I. apply (RE1 d) with (i := z); auto; [apply X | apply D].
        - exists res, l', dead'. split; [exact X1|]. split; [auto|]. split; [auto|]. split; [auto|]. split; [right; destruct X5; [subst; auto | lia] | exact X6]. }
      destruct (match cur with Some c => _ | None => _ end) eqn:CU.
      - destruct cur as [c|]; [|discriminate]. apply N.leb_le in CU. apply MV; [lia|]. intros d _ [NP _] L. simpl in NP. lia.
      - rewrite R0. destruct (N.eqb_spec r0 r) as [->|NE].
        + exists (Some r), (a :: l), dead. split; [reflexivity|]. split; [auto|]. split; [auto|]. split; [auto|]. split; [auto|].
          split; [destruct cur; simpl; [apply N.leb_gt in CU; lia | auto]|]. exists a, l. auto.
        + apply MV; [lia|]. intros d D [_ RE] L. rewrite (whole_live_score _ _ d W RE).
          destruct W as [P [G [_ DD]]]. assert (G' := proj1 (proj1 (Forall_app _ _ _) G)). inversion_clear G' as [|? ? GA GL].
          assert (RE' : forall i, In i (a :: l) -> reach i d) by (intros; apply RE; apply in_or_app; auto).
          simpl in F. destruct (Qle_bool t (0 + it_bound a)) eqn:QB; [injection F as ->; congruence|].
          assert (0 + it_bound a < t)%Q. { destruct (Qlt_le_dec (0 + it_bound a) t); auto. apply Qle_bool_iff in q. congruence. }
          inversion_clear A as [|? ? LA AL]. destruct (live_bound a d GA LA). assert (S' := S). apply StronglySorted_inv in S'. destruct S' as [S' _].
          pose proof (pivot_prunes t l (0 + it_bound a)%Q p r d F S' AL GL R L (fun i I => RE' i (or_intror I)) H). simpl. lra.
    Qed.

    (* ---- the score ---- *)
    Definition at_row (r : N) (i : piter) : Q := match it_doc i with Some (r', f) => if N.eqb r' r then idf (pl_len (it_list i)) * scorer r f else 0 | None => 0 end%Q.
    Lemma score_spec : forall r l acc, alive l -> sorted l -> (forall i x, In i l -> it_row i = Some x -> (r <= x)%N) ->
      exists s, score_loop idf scorer r acc l = Some s /\ (s == acc + qsum (map (at_row r) l))%Q.
    Proof.
      induction l as [|a l IH]; simpl; intros acc A S B; [exists acc; split; [auto | ring]|].
      inversion_clear A as [|? ? LA AL]. destruct (live_row _ LA) as [x [f [E R]]]. rewrite E. unfold at_row at 1. rewrite E.
      assert (S' := S). apply StronglySorted_inv in S'. destruct S' as [S' _].
      destruct (N.ltb_spec r x).
      - exists acc. split; auto. rewrite (proj2 (N.eqb_neq x r)) by lia. rewrite (qsum_zero _ l); [ring|]. intros i I. unfold at_row.
        destruct (it_doc i) as [[y g]|] eqn:EI; [|reflexivity]. assert (RI : it_row i = Some y) by (unfold it_row; rewrite EI; reflexivity).
        pose proof (sorted_rows _ _ S _ _ _ I R RI). rewrite (proj2 (N.eqb_neq y r)) by lia. reflexivity.
      - assert (x = r) by (pose proof (B a x (or_introl eq_refl) R); lia). subst x. rewrite N.eqb_refl.
        destruct (IH (acc + idf (pl_len (it_list a)) * scorer r f)%Q AL S' (fun i x I => B i x (or_intror I))) as [s [X Y]].
        exists s. split; auto. rewrite Y. ring.
    Qed.
    Lemma at_row_le : forall r i, good i -> (at_row r i <= gives (it_list i) r)%Q.
    Proof.
      intros r i G. unfold at_row. destruct (it_doc i) as [[x f]|] eqn:E; [|apply gives_nonneg; apply G].
      destruct (N.eqb_spec x r); [|apply gives_nonneg; apply G]. subst. rewrite (at_gives _ _ _ G E). lra.
    Qed.
    Lemma at_row_eq : forall r i x, good i -> reach i r -> it_row i = Some x -> (r <= x)%N -> (at_row r i == gives (it_list i) r)%Q.
    Proof.
      intros r i x G RE R L. unfold at_row. unfold it_row in R. destruct (it_doc i) as [[y f]|] eqn:E; [|discriminate]. simpl in R. injection R as ->.
      destruct (N.eqb_spec x r); [subst; rewrite (at_gives _ _ _ G E); reflexivity|].
      rewrite (beyond_gives i r x); [reflexivity | auto | auto | unfold it_row; rewrite E; reflexivity | lia].
    Qed.
    Lemma head_least : forall f m r i x, sorted (f :: m) -> it_row f = Some r -> In i (f :: m) -> it_row i = Some x -> (r <= x)%N.
    Proof using. intros. destruct H1 as [->|I]; [rewrite H0 in H2; injection H2 as ->; apply N.le_refl|]. eapply sorted_rows; eauto. Qed.
    Lemma score_found : forall l dead f m r, whole l dead -> sorted l -> l = f :: m -> it_row f = Some r ->
      exists s, score_loop idf scorer r 0%Q l = Some s /\ (s <= row_score lists r)%Q /\ (0 <= s)%Q /\ ((forall i, In i (l ++ dead) -> reach i r) -> s == row_score lists r)%Q.
    Proof.
      intros l dead f m r W S E R. assert (B : forall i x, In i l -> it_row i = Some x -> (r <= x)%N) by (subst; intros; eapply head_least; eauto).
      destruct (score_spec r l 0%Q (proj1 (proj2 (proj2 W))) S B) as [s [X Y]]. exists s. split; auto.
      assert (G := proj1 (proj2 W)). rewrite Forall_forall in G.
      assert (NN : (0 <= qsum (map (fun i => gives (it_list i) r) dead))%Q).
      { rewrite <- (qsum_zero (fun _ : piter => 0%Q) dead) by (intros; reflexivity). apply qsum_le. intros i I. apply gives_nonneg. apply G. apply in_or_app. auto. }
      assert (LE : (qsum (map (at_row r) l) <= qsum (map (fun i => gives (it_list i) r) l))%Q).
      { apply qsum_le. intros i I. apply at_row_le. apply G. apply in_or_app. auto. }
      assert (N0 : (0 <= qsum (map (at_row r) l))%Q).
      { rewrite <- (qsum_zero (fun _ : piter => 0%Q) l) by (intros; reflexivity). apply qsum_le. intros i I. unfold at_row.
        destruct (it_doc i) as [[x g]|] eqn:EI; [|lra]. destruct (N.eqb_spec x r); [|lra]. subst x.
        destruct (G i ltac:(apply in_or_app; auto)) as [[_ O] _]. apply O. eapply nth_error_In. exact EI. }
      repeat split.
      - rewrite (whole_score l dead r W), map_app, qsum_app. lra.
      - lra.
      - intros RE. rewrite (whole_live_score l dead r W RE), Y. rewrite Qplus_0_l. apply qsum_eq. intros i I.
        assert (AL := proj1 (proj2 (proj2 W))). unfold alive in AL. rewrite Forall_forall in AL. destruct (live_row _ (AL _ I)) as [x [g [_ RI]]].
        apply (at_row_eq r i x); [apply G; apply in_or_app; auto | apply RE; apply in_or_app; auto | exact RI | exact (B _ _ I RI)].
    Qed.

    (* ---- the candidates ---- *)
    Section Cands.
      Variable limit : nat.
      Variable M : N -> Prop. (* the rows to be found *)
      Hypothesis limit_pos : limit <> 0.

      Definition full (cands : list (N * Q)) (b : Q) : Prop := length cands = limit /\ forall d s, In (d, s) cands -> (b <= s)%Q.
      Definition cands_ok (t : Q) (cur : option N) (cands : list (N * Q)) : Prop :=
        NoDup (map fst cands) /\ length cands <= limit
        /\ (forall d s, In (d, s) cands -> past cur d /\ M d /\ (s == row_score lists d)%Q /\ (0 <= s)%Q)
        /\ ((t <= 0)%Q \/ full cands t).
      (* the row needs no further look *)
      Definition settled (cands : list (N * Q)) (d : N) : Prop := ~ M d \/ In d (map fst cands) \/ full cands (row_score lists d).

      Lemma fold_min : forall (l : list (N * Q)) m, let r := fold_left (fun m (y : N * Q) => if Qle_bool m (snd y) then m else snd y) l m in
        (r <= m)%Q /\ (forall d s, In (d, s) l -> (r <= s)%Q) /\ (r = m \/ exists d, In (d, r) l).
      Proof.
        induction l as [|[d s] l IH]; simpl; intros m; [split; [lra | split; [tauto | auto]]|].
        specialize (IH (if Qle_bool m s then m else s)). simpl in IH. destruct IH as [A [B C]].
        set (r := fold_left _ l _) in *.
        assert (X : (r <= m)%Q /\ (r <= s)%Q). { destruct (Qle_bool m s) eqn:E; [apply Qle_bool_iff in E; lra|].
          assert (s < m)%Q. { destruct (Qlt_le_dec s m); auto. apply Qle_bool_iff in q. congruence. } lra. }
        split; [tauto|]. split; [intros d' s' [I|I]; [injection I as <- <-; tauto | eauto]|].
        destruct C as [C|[d' C]]; [|right; exists d'; auto]. destruct (Qle_bool m s); [auto|]. right. exists d. left. rewrite C. auto.
      Qed.
      Lemma peek_spec : forall l, l <> [] -> exists m, peek l = Some m /\ (forall d s, In (d, s) l -> (m <= s)%Q) /\ exists d, In (d, m) l.
      Proof.
        intros [|[d s] l] NE; [congruence|]. simpl. eexists. split; [reflexivity|]. destruct (fold_min l s) as [A [B C]]. split.
        - intros d' s' [I|I]; [injection I as <- <-; exact A | eauto].
        - destruct C as [C|[d' C]]; [exists d; left; rewrite C; reflexivity | exists d'; right; auto].
      Qed.

      Lemma low_settled : forall t cur cands d, cands_ok t cur cands -> (row_score lists d < t)%Q -> settled cands d.
      Proof.
        intros t cur cands d [_ [_ [_ E]]] L. right. right. pose proof (score_nonneg lists d lists_ok).
        destruct E as [E|[E1 E2]]; [lra|]. split; auto. intros d' s I. specialize (E2 _ _ I). lra.
      Qed.
      Lemma offer_spec : forall t cur cur' posts cands r s, cands_ok t cur cands -> ~ past cur r -> (forall d, past cur d -> past cur' d) -> past cur' r -> M r ->
        (s <= row_score lists r)%Q -> (0 <= s)%Q -> (s == row_score lists r \/ row_score lists r < t)%Q ->
        exists t' cands', offer scale popmin limit r s {| wd_threshold := t; wd_cur := cur'; wd_posts := posts; wd_cands := cands |}
          = Some {| wd_threshold := t'; wd_cur := cur'; wd_posts := posts; wd_cands := cands' |}
          /\ cands_ok t' cur' cands' /\ settled cands' r /\ (forall d, settled cands d -> settled cands' d).
      Proof.
        intros t cur cur' posts cands r s CO NP PP PR MR SL S0 SE. pose proof CO as [ND [LE [EL TH]]].
        assert (NI : ~ In r (map fst cands)). { intro I. apply in_map_iff in I. destruct I as [[d x] [E I]]. simpl in E. subst d. destruct (EL _ _ I). tauto. }
        assert (EL' : forall d x, In (d, x) cands -> past cur' d /\ M d /\ (x == row_score lists d)%Q /\ (0 <= x)%Q).
        { intros d x I. destruct (EL _ _ I) as [X Y]. auto. }
        unfold offer. cbn [wd_threshold wd_cur wd_posts wd_cands]. destruct (Nat.ltb_spec (length cands) limit) as [LT|GE].
        - (* there is room *)
          assert (T0 : (t <= 0)%Q) by (destruct TH as [X|[X _]]; [auto | lia]).
          assert (SE' : (s == row_score lists r)%Q). { destruct SE as [X|X]; auto. pose proof (score_nonneg lists r lists_ok). lra. }
          eexists _, _. split; [reflexivity|]. split; [|split].
          + split; [simpl; constructor; auto|]. split; [simpl; lia|]. split; [|left; auto]. intros d x [I|I]; [injection I as <- <-; auto | auto].
          + right. left. left. reflexivity.
          + intros d [X|[X|[X _]]]; [left; auto | right; left; right; auto | lia].
        - assert (LEN : length cands = limit) by lia.
          destruct (peek_spec cands) as [m [E [MIN [dm IM]]]]; [destruct cands; [simpl in LEN; congruence | discriminate]|]. rewrite E.
          destruct (Qle_bool s m) eqn:QB.
          + apply Qle_bool_iff in QB. exists t, cands. split; [reflexivity|]. split; [split; [auto|]; split; [auto|]; split; auto|].
            split; [|auto]. destruct SE as [X|X]; [|eapply low_settled; eauto]. right. right. split; auto. intros d x I. specialize (MIN _ _ I). lra.
          + assert (LT : (m < s)%Q). { destruct (Qlt_le_dec m s); auto. apply Qle_bool_iff in q. congruence. }
            assert (SE' : (s == row_score lists r)%Q).
            { destruct SE as [X|X]; auto. pose proof (score_nonneg lists r lists_ok). destruct TH as [Y|[_ Y]]; [lra|]. specialize (Y _ _ IM). lra. }
            destruct (pop_ok cands) as [[xd xs] [PE XM]]; [destruct cands; [simpl in LEN; congruence | discriminate]|].
            set (c' := (r, s) :: popmin cands).
            assert (SUB : forall d x, In (d, x) (popmin cands) -> In (d, x) cands) by (intros; eapply Permutation_in; [apply Permutation_sym; exact PE | right; auto]).
            assert (XI : In (xd, xs) cands) by (eapply Permutation_in; [apply Permutation_sym; exact PE | left; auto]).
            assert (XL : (xs <= m)%Q) by (apply (XM (dm, m)); auto). simpl in XM.
            assert (LEN' : length c' = limit) by (unfold c'; simpl; apply Permutation_length in PE; simpl in PE; lia).
            assert (ND' : NoDup (map fst c')).
            { pose proof (Permutation_map fst PE) as PM. simpl in PM. apply (Permutation_NoDup PM) in ND. inversion_clear ND. simpl. constructor; auto.
              intro I. apply NI. eapply Permutation_in; [apply Permutation_sym; exact PM | right; auto]. }
            destruct (peek_spec c') as [m' [E' [MIN' [dm' IM']]]]; [discriminate|]. fold c'. rewrite E'. cbn [omap].
            assert (EC : forall d x, In (d, x) c' -> past cur' d /\ M d /\ (x == row_score lists d)%Q /\ (0 <= x)%Q) by (intros d x [I|I]; [injection I as <- <-; auto | auto]).
            exists (scale m'), c'. split; [reflexivity|]. split; [|split].
            * split; [auto|]. split; [lia|]. split; [auto|]. right. split; auto. intros d x I. specialize (MIN' _ _ I).
              pose proof (scale_ok m' (proj2 (proj2 (proj2 (EC _ _ IM'))))). lra.
            * right. left. left. reflexivity.
            * intros d [X|[X|[_ X]]]; [left; auto | |].
              -- pose proof (Permutation_map fst PE) as PM. simpl in PM. apply (Permutation_in _ PM) in X. destruct X as [X|X]; [|right; left; right; auto].
                 simpl in X. subst xd. right. right. split; auto. intros d' x I. destruct (EL _ _ XI) as [_ [_ [XE _]]]. rewrite <- XE.
                 destruct I as [I|I]; [injection I as <- <-; lra|]. apply (XM (d', x)). auto.
              -- right. right. split; auto. intros d' x I. destruct I as [I|I]; [injection I as <- <-; specialize (X _ _ XI); lra | exact (X _ _ (SUB _ _ I))].
      Qed.

      (* the found row becomes the current one *)
      Lemma advance : forall (ev : N -> Prop) t cur l dead f m r, covered ev t cur (l ++ dead) -> whole l dead -> sorted l -> l = f :: m -> it_row f = Some r -> ~ past cur r ->
        (forall d, matches lists d -> d <> r -> ev d \/ (row_score lists d < t)%Q \/ pending (Some r) (l ++ dead) d)
        /\ (ev r \/ (row_score lists r < t)%Q \/ forall i, In i (l ++ dead) -> reach i r).
      Proof.
        intros ev t cur l dead f m r C W S E R NP. split.
        - intros d D NE. destruct (C d D) as [X|[X|[X Y]]]; auto. right. right. split; auto. simpl. intro LE.
          destruct D as [SD [pl [I J]]]. destruct W as [P [G [A DD]]]. unfold lists in I. apply in_map_iff in I. destruct I as [k [E' I]].
          apply Permutation_sym in P. apply (Permutation_in _ P) in I. apply in_map_iff in I. destruct I as [i [E'' I]].
          assert (pl = it_list i) by (subst k pl; reflexivity). subst pl. rewrite Forall_forall in G, DD. rewrite H in J.
          destruct (reach_row i d (G _ I) (Y _ I) J) as [LI RI]. apply in_app_or in I. destruct I as [I|I]; [|rewrite (DD _ I) in LI; discriminate].
          destruct (live_row _ LI) as [x [g [_ RX]]]. specialize (RI _ RX). subst l. pose proof (head_least f m r i x S R I RX). lia.
        - assert (D : matches lists r) by (eapply whole_matches; [exact W | rewrite E; left; reflexivity | exact R]).
          destruct (C r D) as [X|[X|[X Y]]]; auto.
      Qed.
      Lemma settled_top : forall t cur cands, cands_ok t cur cands -> (forall d, M d -> matches lists d) -> (forall d, matches lists d -> settled cands d) ->
        is_top limit M (row_score lists) cands.
      Proof.
        intros t cur cands [ND [LE [EL _]]] MM ST. split; [auto|]. split; [auto|]. split; [intros d s I; destruct (EL _ _ I) as [_ [X [Y _]]]; auto|].
        intros d MD NI. destruct (ST d (MM d MD)) as [X|[X|X]]; [tauto | tauto | exact X].
      Qed.
      Lemma whole_srt : forall l dead, whole l dead -> whole (srt l) dead.
      Proof.
        intros l dead [P [G [A D]]]. pose proof (srt_perm l) as X. split; [|split; [|split; auto]].
        - rewrite <- P. apply Permutation_map. apply Permutation_app_tail. auto.
        - apply Forall_forall. intros i I. rewrite Forall_forall in G. apply G. apply in_app_or in I. apply in_or_app. destruct I; auto. left. eapply Permutation_in; eauto.
        - apply Forall_forall. intros i I. unfold alive in A. rewrite Forall_forall in A. apply A. eapply Permutation_in; eauto.
      Qed.
      Lemma covered_srt : forall ev t cur l dead, covered ev t cur (l ++ dead) -> covered ev t cur (srt l ++ dead).
      Proof.
        intros ev t cur l dead C d D. destruct (C d D) as [X|[X|[X Y]]]; auto. right. right. split; auto. intros i I. apply Y.
        apply in_app_or in I. apply in_or_app. destruct I; auto. left. eapply Permutation_in; [apply srt_perm | auto].
      Qed.

      (* ---- search ---- *)
      Section Run.
        Variable phrase : bool.
        Variable n : nat.
        Hypothesis M_matches : forall d, M d -> matches lists d.
        (* what search does with a document it found, 144-153 *)
        Definition verdict (r : N) (l : list piter) : option (option bool) := (* Some None: the loop ends *)
          if phrase then
            if negb (length l =? n) then Some None
            else
              match match last (map Some l) None with None => Some true | Some i => omap (N.eqb r) (it_row i) end with
              | None => None
              | Some false => Some (Some false)
              | Some true => omap Some (check_positions l)
              end
          else Some (Some true).
        Hypothesis verdict_ok : forall l dead f m r, whole l dead -> sorted l -> l = f :: m -> it_row f = Some r ->
          exists v, verdict r l = Some v
            /\ match v with
               | None => (forall d, (forall i, In i (l ++ dead) -> reach i d) -> ~ M d)
               | Some true => M r
               | Some false => (forall i, In i (l ++ dead) -> reach i r) -> ~ M r
               end.

        Lemma search_step : forall fuel st,
          search_loop sel idf scorer scale srt popmin (S fuel) phrase limit n st
          = match next_loop sel srt (fuel_of (srt (wd_posts st))) (wd_threshold st) (wd_cur st) (srt (wd_posts st)) with
            | None => None
            | Some (None, _) => Some (wd_cands st)
            | Some (Some r, l) =>
                let st := {| wd_threshold := wd_threshold st; wd_cur := Some r; wd_posts := l; wd_cands := wd_cands st |} in
                match verdict r l with
                | None => None
                | Some None => Some (wd_cands st)
                | Some (Some false) => search_loop sel idf scorer scale srt popmin fuel phrase limit n st
                | Some (Some true) =>
                    match score_loop idf scorer r 0%Q l with
                    | None => None
                    | Some s => match offer scale popmin limit r s st with None => None | Some st => search_loop sel idf scorer scale srt popmin fuel phrase limit n st end
                    end
                end
            end.
        Proof.
          intros. unfold verdict. cbn [search_loop]. destruct (next_loop _ _ _ _ _ _) as [[[r|] l]|]; auto. destruct phrase; auto.
          destruct (negb (length l =? n)); auto. destruct (match last (map Some l) None with Some i => _ | None => _ end) as [[]|]; auto.
          destruct (check_positions l) as [[]|]; auto.
        Qed.

        Lemma search_spec : forall fuel t cur l dead cands, whole l dead -> covered (settled cands) t cur (l ++ dead) -> cands_ok t cur cands ->
          (match cur with None => measure l < fuel | Some c => measure l <= fuel /\ exists i r, In i l /\ it_row i = Some r /\ (r <= c)%N end) ->
          exists res, search_loop sel idf scorer scale srt popmin fuel phrase limit n {| wd_threshold := t; wd_cur := cur; wd_posts := l; wd_cands := cands |} = Some res
            /\ is_top limit M (row_score lists) res.
        Proof.
          induction fuel as [|fuel IH]; intros t cur l dead cands W C CO FU.
          { destruct cur; [|lia]. destruct FU as [F [i [r [I [R _]]]]]. exfalso. assert (A := proj1 (proj2 (proj2 W))). unfold alive in A. rewrite Forall_forall in A.
            pose proof (live_index _ (A _ I)). apply in_split in I. destruct I as [x [y ->]]. rewrite measure_app, measure_cons in F. unfold left_of in F. lia. }
          rewrite search_step. cbn [wd_posts wd_threshold wd_cur wd_cands].
          destruct (next_spec (settled cands) t cur (fuel_of (srt l)) (srt l) dead) as [res [l' [dead' [E [S [W' [C' [MS R]]]]]]]];
            [unfold fuel_of, measure, left_of; lia | apply srt_sorted | apply whole_srt; auto | apply covered_srt; auto |].
          rewrite E. destruct res as [r|].
          2: { exists cands. split; auto. eapply settled_top; eauto. intros d D. destruct (R d D); auto. eapply low_settled; eauto. }
          destruct R as [NP [f [m [EL RF]]]]. destruct (advance _ _ _ _ _ _ _ _ C' W' S EL RF NP) as [ADV AR].
          destruct (verdict_ok l' dead' f m r W' S EL RF) as [v [V VO]]. rewrite V. cbn zeta.
          assert (PP : forall d, past cur d -> past (Some r) d). { intros d X. destruct cur as [c|]; [|destruct X]. simpl in *. lia. }
          assert (FU' : measure l' <= fuel /\ exists i x, In i l' /\ it_row i = Some x /\ (x <= r)%N).
          { split; [|exists f, r; rewrite EL; split; [left; auto | split; [auto | lia]]]. pose proof (measure_perm _ _ (srt_perm l)).
            destruct cur as [c|].
            - destruct FU as [F [i [x [I [RI LX]]]]]. destruct MS as [MS|MS]; [|lia]. exfalso. assert (I' : In i l').
              { rewrite MS. eapply Permutation_in; [apply Permutation_sym; apply srt_perm | auto]. }
              rewrite EL in S, I'. pose proof (head_least f m r i x S RF I' RI). simpl in NP. lia.
            - destruct MS as [->|MS]; lia. }
          assert (CO' : cands_ok t (Some r) cands).
          { destruct CO as [X [Y [Z T]]]. split; [auto|]. split; [auto|]. split; [|auto]. intros d s I. destruct (Z _ _ I) as [Z1 Z2]. auto. }
          assert (GO : forall t' cands', cands_ok t' (Some r) cands' -> settled cands' r -> (forall d, settled cands d -> settled cands' d) ->
            exists res, search_loop sel idf scorer scale srt popmin fuel phrase limit n {| wd_threshold := t'; wd_cur := Some r; wd_posts := l'; wd_cands := cands' |} = Some res
              /\ is_top limit M (row_score lists) res).
          { intros t' cands' K SR MO. apply (IH t' (Some r) l' dead' cands' W'); auto. intros d D. destruct (N.eq_dec d r) as [->|NE]; [auto|].
            destruct (ADV d D NE) as [X|[X|X]]; auto. left. apply MO. eapply low_settled; eauto. }
          destruct v as [[]|].
          - destruct (score_found l' dead' f m r W' S EL RF) as [s [ES [SL [S0 SQ]]]]. rewrite ES.
            destruct AR as [X|AR].
            + (* a settled row does not come back *)
              destruct X as [X|[X|X]]; [tauto | |].
              * exfalso. destruct CO as [_ [_ [Z _]]]. apply in_map_iff in X. destruct X as [[d y] [Q I]]. simpl in Q. subst d. destruct (Z _ _ I). tauto.
              * (* it is no better than the candidates *)
                unfold offer. cbn [wd_cands wd_threshold wd_cur wd_posts]. destruct X as [X1 X2]. rewrite (proj2 (Nat.ltb_ge _ _)) by lia.
                destruct (peek_spec cands) as [mn [PE [MIN [dm IM]]]]; [destruct cands; [simpl in X1; congruence | discriminate]|]. rewrite PE.
                rewrite (proj2 (Qle_bool_iff s mn)) by (specialize (X2 _ _ IM); lra).
                apply GO; auto. right. right. split; auto.
            + destruct (offer_spec t cur (Some r) l' cands r s CO NP PP ltac:(simpl; lia) VO SL S0) as [t' [cands' [OE [K [SR MO]]]]]; [tauto|].
              rewrite OE. apply GO; auto.
          - apply GO; auto. destruct AR as [X|[X|X]]; auto; [eapply low_settled; eauto | left; auto].
          - exists cands. split; auto. eapply settled_top; eauto. intros d D. destruct (C' d D) as [X|[X|[_ X]]]; auto; [eapply low_settled; eauto | left; auto].
        Qed.
      End Run.
    End Cands.
  End Loop.
End Search.
