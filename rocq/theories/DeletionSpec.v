(* Vocabulary for statements about deletions, independent of the model: the
   surviving rows of a fragment of [n] physical rows with deleted offsets [d]. *)
From Coq Require Import List Arith NArith Bool Lia Permutation.
From Coq Require Import ZifyBool ZifyN ZifyNat.
From Verif Require Import Lib.
Import ListNotations.
Local Open Scope N_scope.

Definition alive (d : list N) (n : N) : list N :=
  filter (fun x => negb (memN x d)) (nrange 0 (N.to_nat n)).
Definition live (d : list N) (n : N) : N := N.of_nat (length (alive d n)).
(* deleted offsets below n *)
Definition dead (d : list N) (n : N) : N := N.of_nat (length (filter (fun x => x <? n) d)).

(* row [m] is the [k]-th surviving row (counting from 0) *)
Definition kth (d : list N) (k m : N) : Prop := ~ In m d /\ live d m = k.

Lemma alive_In : forall d n x, In x (alive d n) <-> x < n /\ ~ In x d.
Proof.
  intros d n x. unfold alive. rewrite filter_In, nrange_In, negb_true_iff, memN_false. 
  split; intros [H1 H2]; split; auto; lia.
Qed.
Lemma alive_sinc : forall d n, sinc (alive d n).
Proof. intros. apply sinc_filter, nrange_sinc. Qed.
Lemma alive_0 : forall d, alive d 0 = [].
Proof. reflexivity. Qed.
Lemma alive_succ : forall d n, alive d (n + 1) = alive d n ++ (if memN n d then [] else [n]).
Proof.
  intros d n. unfold alive. replace (N.to_nat (n + 1)) with (N.to_nat n + 1)%nat by lia.
  rewrite nrange_app, filter_app. f_equal. cbn [nrange filter].
  replace (0 + N.of_nat (N.to_nat n)) with n by lia. destruct (memN n d); reflexivity.
Qed.
Lemma live_succ : forall d n, live d (n + 1) = live d n + (if memN n d then 0 else 1).
Proof. intros. unfold live. rewrite alive_succ, app_length. destruct (memN n d); simpl; lia. Qed.
Lemma alive_prefix : forall d m n, m <= n -> exists r, alive d n = alive d m ++ r.
Proof.
  intros d m n H. unfold alive. replace (N.to_nat n) with (N.to_nat m + N.to_nat (n - m))%nat by lia.
  rewrite nrange_app, filter_app. eauto.
Qed.
Lemma live_mono : forall d m n, m <= n -> live d m <= live d n.
Proof. intros d m n H. destruct (alive_prefix d m n H) as [r E]. unfold live. rewrite E, app_length. lia. Qed.
Lemma live_le : forall d n, live d n <= n.
Proof.
  intros d n. unfold live, alive. pose proof (filter_length_split (fun x => negb (memN x d)) (nrange 0 (N.to_nat n))) as H.
  rewrite nrange_length in H. lia.
Qed.
Lemma NoDup_filter' : forall {A} (f : A -> bool) l, NoDup l -> NoDup (filter f l).
Proof.
  induction l; simpl; auto. intros H. inversion H; subst. destruct (f a); auto. constructor; auto.
  intros C. apply filter_In in C. tauto.
Qed.
Lemma count_perm : forall d a n, NoDup d ->
  length (filter (fun x => memN x d) (nrange a n)) =
  length (filter (fun x => (a <=? x) && (x <? a + N.of_nat n)) d).
Proof.
  intros d a n H. apply Permutation_length, NoDup_Permutation.
  - apply NoDup_filter', sinc_NoDup, nrange_sinc.
  - now apply NoDup_filter'.
  - intros x. rewrite !filter_In, nrange_In, memN_In, andb_true_iff, N.leb_le, N.ltb_lt. tauto.
Qed.
Lemma live_dead : forall d n, NoDup d -> live d n + dead d n = n.
Proof.
  intros d n H. unfold live, dead, alive.
  pose proof (filter_length_split (fun x => memN x d) (nrange 0 (N.to_nat n))) as E.
  rewrite nrange_length, count_perm in E by auto.
  rewrite (filter_ext (fun x => x <? n) (fun x => (0 <=? x) && (x <? 0 + N.of_nat (N.to_nat n)))) by (intros; lia).
  lia.
Qed.
Lemma filter_len_le : forall {A} (f : A -> bool) l, (length (filter f l) <= length l)%nat.
Proof. induction l; simpl; auto. destruct (f a); simpl; lia. Qed.
Lemma dead_le : forall d n, dead d n <= N.of_nat (length d).
Proof. intros. unfold dead. pose proof (filter_len_le (fun x => x <? n) d). lia. Qed.
Lemma dead_all : forall d n, (forall x, In x d -> x < n) -> dead d n = N.of_nat (length d).
Proof. intros. unfold dead. rewrite filter_all_true; auto. intros x Hx. apply H in Hx. lia. Qed.

Lemma kth_succ : forall d k m, kth d k m -> live d (m + 1) = k + 1.
Proof. intros d k m [H1 H2]. rewrite live_succ. apply memN_false in H1. rewrite H1. lia. Qed.
Lemma kth_unique : forall d k m1 m2, kth d k m1 -> kth d k m2 -> m1 = m2.
Proof.
  intros d k m1 m2 H1 H2. pose proof (kth_succ _ _ _ H1). pose proof (kth_succ _ _ _ H2).
  destruct H1 as [_ H1], H2 as [_ H2].
  destruct (N.lt_trichotomy m1 m2) as [L|[L|L]]; auto.
  - pose proof (live_mono d (m1 + 1) m2 ltac:(lia)). lia.
  - pose proof (live_mono d (m2 + 1) m1 ltac:(lia)). lia.
Qed.
Lemma kth_mono : forall d k1 k2 m1 m2, kth d k1 m1 -> kth d k2 m2 -> k1 <= k2 -> m1 <= m2.
Proof.
  intros d k1 k2 m1 m2 H1 H2 L. pose proof (kth_succ _ _ _ H2). destruct H1 as [_ H1], H2 as [_ H2].
  destruct (N.le_gt_cases m1 m2); auto. pose proof (live_mono d (m2 + 1) m1 ltac:(lia)). lia.
Qed.
(* the k-th element of the list of surviving rows *)
Lemma kth_nth : forall d n k m, nth_error (alive d n) k = Some m <-> m < n /\ kth d (N.of_nat k) m.
Proof.
  intros d n. induction n using N.peano_ind; intros k m.
  - rewrite alive_0, nth_error_nil'. split; [discriminate|lia].
  - rewrite <- N.add_1_r, alive_succ.
    destruct (Nat.lt_ge_cases k (length (alive d n))) as [L|L].
    + rewrite nth_error_app1 by auto. rewrite IHn. split; intros [H1 H2]; split; auto; [lia|].
      destruct H2 as [H2 H3]. destruct (N.eq_dec m n); [|lia]. subst. unfold live in H3. lia.
    + rewrite nth_error_app2 by auto. destruct (memN n d) eqn:E.
      * rewrite nth_error_nil'. split; [discriminate|]. intros [H1 [H2 H3]].
        apply memN_In in E. assert (m <> n) by (intros ->; auto).
        assert (Hn : nth_error (alive d n) k = Some m) by (apply IHn; split; [lia|split; auto]).
        apply nth_error_None in L. congruence.
      * apply memN_false in E. destruct (k - length (alive d n))%nat as [|j] eqn:Ej.
        -- cbn. assert (k = length (alive d n)) by lia. subst k. split.
           ++ intros [= <-]. split; [lia|]. split; auto.
           ++ intros [H1 H2]. f_equal. symmetry. eapply kth_unique; eauto. split; auto.
        -- cbn. rewrite nth_error_nil'. split; [discriminate|]. intros [H1 [H2 H3]]. exfalso.
           pose proof (live_mono d m n ltac:(lia)). unfold live in *. lia.
Qed.
Lemma kth_exists : forall d n k, k < live d n -> exists m, m < n /\ kth d k m.
Proof.
  intros d n k H. unfold live in H.
  destruct (nth_error (alive d n) (N.to_nat k)) as [m|] eqn:E.
  - exists m. apply kth_nth in E. now rewrite N2Nat.id in E.
  - apply nth_error_None in E. lia.
Qed.
