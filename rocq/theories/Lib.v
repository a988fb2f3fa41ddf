(* Shared list and number helpers.  Nothing here models repository code. *)
From Coq Require Import List Arith NArith ZArith Lia Bool Sorting.Sorted Permutation.
From Coq Require Import ZifyBool ZifyN ZifyNat.
Import ListNotations.

Local Open Scope nat_scope.

(* [nrange a n] is the list a, a+1, ..., a+n-1 of N. *)
Fixpoint nrange (a : N) (n : nat) : list N :=
  match n with
  | O => []
  | S k => a :: nrange (a + 1) k
  end.

Definition memN (v : N) (l : list N) : bool := existsb (N.eqb v) l.
Definition memb (v : nat) (l : list nat) : bool := existsb (Nat.eqb v) l.

(* strictly increasing *)
Fixpoint sinc (l : list N) : Prop :=
  match l with
  | [] => True
  | x :: t => (forall y, In y t -> (x < y)%N) /\ sinc t
  end.

Fixpoint sincn (l : list nat) : Prop :=
  match l with
  | [] => True
  | x :: t => (forall y, In y t -> x < y) /\ sincn t
  end.

Definition omap {A B} (f : A -> B) (o : option A) : option B :=
  match o with Some a => Some (f a) | None => None end.
Definition obind {A B} (o : option A) (f : A -> option B) : option B :=
  match o with Some a => f a | None => None end.

(* all Some, or None *)
Fixpoint sequence_opt {A} (l : list (option A)) : option (list A) :=
  match l with
  | [] => Some []
  | None :: _ => None
  | Some a :: t => match sequence_opt t with Some r => Some (a :: r) | None => None end
  end.

Fixpoint sumn (l : list nat) : nat :=
  match l with [] => 0 | x :: t => x + sumn t end.

Lemma memN_In : forall v l, memN v l = true <-> In v l.
Proof.
  intros v l. unfold memN. rewrite existsb_exists. split.
  - intros [x [H1 H2]]. apply N.eqb_eq in H2. now subst.
  - intros H. exists v. split; auto. apply N.eqb_refl.
Qed.

Lemma memN_false : forall v l, memN v l = false <-> ~ In v l.
Proof.
  intros v l. rewrite <- memN_In. destruct (memN v l); split; intros; try congruence; try tauto.
Qed.

Lemma memb_In : forall v l, memb v l = true <-> In v l.
Proof.
  intros v l. unfold memb. rewrite existsb_exists. split.
  - intros [x [H1 H2]]. apply Nat.eqb_eq in H2. now subst.
  - intros H. exists v. split; auto. apply Nat.eqb_refl.
Qed.

Lemma memb_false : forall v l, memb v l = false <-> ~ In v l.
Proof.
  intros v l. rewrite <- memb_In. destruct (memb v l); split; intros; try congruence; try tauto.
Qed.

Lemma nrange_length : forall n a, length (nrange a n) = n.
Proof. induction n; simpl; intros; auto. Qed.

Lemma nrange_In : forall n a v, In v (nrange a n) <-> (a <= v < a + N.of_nat n)%N.
Proof.
  induction n; intros a v.
  - simpl. split; [tauto | lia].
  - cbn [nrange In]. rewrite IHn. lia.
Qed.

Lemma nrange_nth : forall n a i, i < n -> nth_error (nrange a n) i = Some (a + N.of_nat i)%N.
Proof.
  induction n; intros a i H; [lia|].
  destruct i; cbn [nrange nth_error].
  - f_equal; lia.
  - rewrite IHn by lia. f_equal; lia.
Qed.

Lemma nrange_app : forall n m a, nrange a (n + m) = nrange a n ++ nrange (a + N.of_nat n) m.
Proof.
  induction n; intros m a.
  - simpl. f_equal; lia.
  - change (S n + m) with (S (n + m)). cbn [nrange app]. f_equal.
    rewrite IHn. do 2 f_equal. lia.
Qed.

Lemma nrange_skipn : forall n k a, skipn k (nrange a n) = nrange (a + N.of_nat k) (n - k).
Proof.
  induction n; intros k a.
  - destruct k; reflexivity.
  - destruct k; cbn [skipn nrange].
    + replace (S n - 0) with (S n) by lia. cbn [nrange]. f_equal; [lia|f_equal; lia].
    + rewrite IHn. f_equal; lia.
Qed.

Lemma nrange_firstn : forall n k a, firstn k (nrange a n) = nrange a (Nat.min k n).
Proof.
  induction n; intros k a.
  - destruct k; reflexivity.
  - destruct k; cbn [firstn nrange Nat.min]; auto. f_equal; auto.
Qed.

Lemma sinc_app : forall l1 l2, sinc (l1 ++ l2) <->
  sinc l1 /\ sinc l2 /\ (forall x y, In x l1 -> In y l2 -> (x < y)%N).
Proof.
  induction l1; simpl; intros l2.
  - split; [intros; repeat split; auto; tauto | tauto].
  - rewrite IHl1. split.
    + intros [H1 [H2 [H3 H4]]]. repeat split; auto.
      * intros y Hy. apply H1. apply in_or_app; auto.
      * intros x y [->|Hx] Hy; auto. apply H1. apply in_or_app; auto.
    + intros [[H1 H2] [H3 H4]]. repeat split; auto.
      intros y Hy. apply in_app_or in Hy. destruct Hy; auto.
Qed.

Lemma nrange_sinc : forall n a, sinc (nrange a n).
Proof.
  induction n; intros a; cbn [nrange sinc]; auto.
  split; auto. intros y Hy. apply nrange_In in Hy. lia.
Qed.

Lemma sinc_NoDup : forall l, sinc l -> NoDup l.
Proof.
  induction l; simpl; intros; constructor.
  - intros Hin. destruct H as [H _]. specialize (H _ Hin). lia.
  - tauto.
Qed.

Lemma sinc_filter : forall f l, sinc l -> sinc (filter f l).
Proof.
  induction l; simpl; auto. intros [H1 H2].
  destruct (f a); simpl; auto. split; auto.
  intros y Hy. apply filter_In in Hy. apply H1; tauto.
Qed.

Lemma sinc_ext : forall l1 l2, sinc l1 -> sinc l2 -> (forall x, In x l1 <-> In x l2) -> l1 = l2.
Proof.
  induction l1 as [|a l1 IH]; intros [|b l2] S1 S2 E; auto.
  - exfalso. apply (E b). now left.
  - exfalso. apply (E a). now left.
  - simpl in S1, S2. destruct S1 as [A1 S1], S2 as [A2 S2].
    assert (a = b).
    { destruct (proj1 (E a) (or_introl eq_refl)) as [->|Ha]; auto.
      destruct (proj2 (E b) (or_introl eq_refl)) as [->|Hb]; auto.
      specialize (A1 _ Hb). specialize (A2 _ Ha). lia. }
    subst b. f_equal. apply IH; auto.
    intros x. split; intros Hx.
    + destruct (proj1 (E x) (or_intror Hx)) as [->|]; auto. specialize (A1 _ Hx). lia.
    + destruct (proj2 (E x) (or_intror Hx)) as [->|]; auto. specialize (A2 _ Hx). lia.
Qed.

Lemma filter_ext_in' : forall {A} (f g : A -> bool) l,
  (forall x, In x l -> f x = g x) -> filter f l = filter g l.
Proof. intros. apply filter_ext_in. auto. Qed.

Lemma filter_all_true : forall {A} (f : A -> bool) l,
  (forall x, In x l -> f x = true) -> filter f l = l.
Proof.
  induction l; simpl; intros; auto. rewrite H by auto. f_equal. apply IHl. auto.
Qed.

Lemma filter_all_false : forall {A} (f : A -> bool) l,
  (forall x, In x l -> f x = false) -> filter f l = [].
Proof.
  induction l; simpl; intros; auto. rewrite H by auto. apply IHl. auto.
Qed.

Lemma filter_length_split : forall {A} (f : A -> bool) l,
  length (filter f l) + length (filter (fun x => negb (f x)) l) = length l.
Proof.
  induction l; simpl; auto. destruct (f a); simpl; lia.
Qed.

Lemma sumn_app : forall l1 l2, sumn (l1 ++ l2) = sumn l1 + sumn l2.
Proof. induction l1; simpl; intros; auto. rewrite IHl1. lia. Qed.

Lemma sincn_NoDup : forall l, sincn l -> NoDup l.
Proof.
  induction l; simpl; intros; constructor.
  - intros Hin. destruct H as [H _]. specialize (H _ Hin). lia.
  - tauto.
Qed.

Lemma sincn_seq : forall n a, sincn (seq a n).
Proof.
  induction n; simpl; intros; auto. split; auto.
  intros y Hy. apply in_seq in Hy. lia.
Qed.

Lemma nth_error_nil' : forall {A} i, nth_error (@nil A) i = None.
Proof. destruct i; auto. Qed.

Lemma skipn_skipn' : forall {A} n m (l : list A), skipn n (skipn m l) = skipn (m + n) l.
Proof.
  induction m; intros l; [reflexivity|]. destruct l; simpl; auto. destruct n; reflexivity.
Qed.
