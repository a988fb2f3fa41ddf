(* Ordered maps with N keys (Rust BTreeMap) as association lists with strictly
   increasing keys, and finite sets of N as strictly increasing lists. *)
From Coq Require Import List Arith NArith Bool Lia ZifyBool ZifyN ZifyNat.
From Verif Require Import Lib.
Import ListNotations.
Local Open Scope nat_scope.

(** * Finite sets *)
Fixpoint s_insert (x : N) (s : list N) : list N :=
  match s with
  | [] => [x]
  | y :: t => if (x <? y)%N then x :: s else if (x =? y)%N then s else y :: s_insert x t
  end.
Definition s_union (a b : list N) : list N := fold_right s_insert b a.
Definition s_inter (a b : list N) : list N := filter (fun x => memN x b) a.
Definition s_diff (a b : list N) : list N := filter (fun x => negb (memN x b)) a.
Definition s_of_list (l : list N) : list N := fold_right s_insert [] l.

Lemma s_insert_In : forall x s y, In y (s_insert x s) <-> y = x \/ In y s.
Proof.
  induction s as [|z s IH]; intros y; simpl; [intuition|].
  destruct (x <? z)%N eqn:E; [simpl; intuition|].
  destruct (x =? z)%N eqn:E2; simpl.
  - assert (x = z) by lia. subst. intuition.
  - rewrite IH. intuition.
Qed.
Lemma s_insert_sinc : forall x s, sinc s -> sinc (s_insert x s).
Proof.
  induction s as [|z s IH]; intros H; [simpl; tauto|]. cbn [s_insert]. destruct H as [H1 H2].
  destruct (x <? z)%N eqn:E.
  - split; [|split; auto]. intros y [<-|Hy]; [lia|]. specialize (H1 _ Hy). lia.
  - destruct (x =? z)%N eqn:E2; [split; auto|]. split; [|auto].
    intros y Hy. apply s_insert_In in Hy. destruct Hy as [->|Hy]; [lia|auto].
Qed.
Lemma s_union_In : forall a b y, In y (s_union a b) <-> In y a \/ In y b.
Proof.
  induction a as [|x a IH]; intros b y; simpl; [tauto|]. unfold s_union in *. rewrite s_insert_In, IH. intuition.
Qed.
Lemma s_union_sinc : forall a b, sinc b -> sinc (s_union a b).
Proof. induction a; simpl; intros; auto. apply s_insert_sinc, IHa; auto. Qed.
Lemma s_of_list_In : forall l y, In y (s_of_list l) <-> In y l.
Proof. intros. unfold s_of_list. change (fold_right s_insert [] l) with (s_union l []). rewrite s_union_In. simpl. tauto. Qed.
Lemma s_of_list_sinc : forall l, sinc (s_of_list l).
Proof. intros. unfold s_of_list. change (fold_right s_insert [] l) with (s_union l []). apply s_union_sinc. exact I. Qed.
Lemma s_inter_In : forall a b y, In y (s_inter a b) <-> In y a /\ In y b.
Proof. intros. unfold s_inter. rewrite filter_In, memN_In. tauto. Qed.
Lemma s_diff_In : forall a b y, In y (s_diff a b) <-> In y a /\ ~ In y b.
Proof.
  intros. unfold s_diff. rewrite filter_In. rewrite negb_true_iff. rewrite <- not_true_iff_false, memN_In. tauto.
Qed.
Lemma sinc_filter : forall f l, sinc l -> sinc (filter f l).
Proof.
  induction l as [|x l IH]; simpl; intros H; auto. destruct H as [H1 H2]. destruct (f x); auto.
  split; auto. intros y Hy. apply filter_In in Hy. apply H1. tauto.
Qed.

Lemma sinc_ext : forall a b, sinc a -> sinc b -> (forall x, In x a <-> In x b) -> a = b.
Proof.
  induction a as [|x a IH]; intros b Ha Hb H.
  - destruct b as [|y b]; auto. exfalso. apply (proj2 (H y)). now left.
  - destruct b as [|y b]; [exfalso; apply (proj1 (H x)); now left|].
    destruct Ha as [Ha1 Ha2], Hb as [Hb1 Hb2].
    assert (x = y).
    { destruct (proj1 (H x) (or_introl eq_refl)) as [E|Hx]; auto.
      destruct (proj2 (H y) (or_introl eq_refl)) as [E|Hy]; auto.
      specialize (Ha1 _ Hy). specialize (Hb1 _ Hx). lia. }
    subst y. f_equal. apply IH; auto. intros z. specialize (H z). split; intros Hz.
    + destruct (proj1 H (or_intror Hz)) as [<-|]; auto. specialize (Ha1 _ Hz). lia.
    + destruct (proj2 H (or_intror Hz)) as [<-|]; auto. specialize (Hb1 _ Hz). lia.
Qed.

(** * Maps *)
Definition amap (V : Type) := list (N * V).
Definition keys {V} (m : amap V) : list N := map fst m.
Definition am_wf {V} (m : amap V) : Prop := sinc (keys m).

Fixpoint get {V} (k : N) (m : amap V) : option V :=
  match m with [] => None | (k', v) :: t => if (k =? k')%N then Some v else get k t end.
Fixpoint put {V} (k : N) (v : V) (m : amap V) : amap V :=
  match m with
  | [] => [(k, v)]
  | (k', v') :: t => if (k <? k')%N then (k, v) :: m
                     else if (k =? k')%N then (k, v) :: t else (k', v') :: put k v t
  end.
Definition del {V} (k : N) (m : amap V) : amap V := filter (fun p => negb (fst p =? k)%N) m.
Definition has {V} (k : N) (m : amap V) : bool := match get k m with Some _ => true | None => false end.

Section Maps.
Context {V : Type}.
Implicit Types m : amap V.

Lemma get_put_eq : forall k (v : V) m, get k (put k v m) = Some v.
Proof.
  induction m as [|[k' v'] m IH]; simpl; [now rewrite N.eqb_refl|].
  destruct (k <? k')%N eqn:E; simpl; [now rewrite N.eqb_refl|].
  destruct (k =? k')%N eqn:E2; simpl; [now rewrite N.eqb_refl|]. now rewrite E2.
Qed.
Lemma get_put_neq : forall k k' (v : V) m, k <> k' -> get k (put k' v m) = get k m.
Proof.
  induction m as [|[k2 v2] m IH]; simpl; intros H; [now replace (k =? k')%N with false by lia|].
  destruct (k' <? k2)%N eqn:E; simpl; [now replace (k =? k')%N with false by lia|].
  destruct (k' =? k2)%N eqn:E2; simpl.
  - replace k2 with k' by lia. now replace (k =? k')%N with false by lia.
  - destruct (k =? k2)%N; auto.
Qed.
Lemma get_put : forall k k' (v : V) m, get k (put k' v m) = if (k =? k')%N then Some v else get k m.
Proof.
  intros. destruct (N.eqb_spec k k'); [subst; apply get_put_eq|now apply get_put_neq].
Qed.
Lemma get_filter_key : forall (f : N -> bool) k m,
  get k (filter (fun p => f (fst p)) m) = if f k then get k m else None.
Proof.
  induction m as [|[k' v'] m IH]; simpl; [destruct (f k); auto|].
  destruct (f k') eqn:E; simpl.
  - destruct (N.eqb_spec k k'); [subst; now rewrite E|auto].
  - destruct (N.eqb_spec k k'); [subst; rewrite E in *; auto|auto].
Qed.
Lemma get_del : forall k k' m, get k (del k' m) = if (k =? k')%N then None else get k m.
Proof.
  intros. unfold del. rewrite (get_filter_key (fun x => negb (x =? k')%N)). now destruct (k =? k')%N.
Qed.
Lemma get_In : forall k (v : V) m, get k m = Some v -> In (k, v) m.
Proof.
  induction m as [|[k' v'] m IH]; simpl; intros H; [discriminate|].
  destruct (N.eqb_spec k k'); [left; congruence|auto].
Qed.
Lemma get_None : forall k m, get k m = None <-> ~ In k (keys m).
Proof.
  induction m as [|[k' v'] m IH]; simpl; [tauto|].
  destruct (N.eqb_spec k k'); [subst; intuition discriminate|]. rewrite IH. intuition.
Qed.
Lemma In_get : forall k (v : V) m, am_wf m -> In (k, v) m -> get k m = Some v.
Proof.
  unfold am_wf. induction m as [|[k' v'] m IH]; simpl; intros W H; [destruct H|].
  destruct W as [W1 W2]. destruct H as [H|H].
  - injection H as -> ->. now rewrite N.eqb_refl.
  - assert (In k (keys m)) by (apply (in_map fst) in H; exact H).
    specialize (W1 _ H0). replace (k =? k')%N with false by lia. auto.
Qed.
Lemma keys_put : forall k (v : V) m, keys (put k v m) = s_insert k (keys m).
Proof.
  induction m as [|[k' v'] m IH]; simpl; auto.
  destruct (k <? k')%N eqn:E; simpl; auto. destruct (k =? k')%N eqn:E2; simpl.
  - f_equal. lia.
  - now f_equal.
Qed.
Lemma put_wf : forall k (v : V) m, am_wf m -> am_wf (put k v m).
Proof. intros. unfold am_wf. rewrite keys_put. now apply s_insert_sinc. Qed.
Lemma filter_wf : forall f m, am_wf m -> am_wf (filter f m).
Proof.
  unfold am_wf. induction m as [|p m IH]; simpl; intros H; auto. destruct H as [H1 H2].
  destruct (f p); simpl; auto. split; auto. intros y Hy. apply H1. unfold keys in *. rewrite in_map_iff in *.
  destruct Hy as [q [E Hq]]. apply filter_In in Hq. exists q. tauto.
Qed.
Lemma del_wf : forall k m, am_wf m -> am_wf (del k m).
Proof. intros. now apply filter_wf. Qed.

(* two well-formed maps with the same entries are equal *)
Lemma amap_ext : forall m1 m2, am_wf m1 -> am_wf m2 -> (forall k, get k m1 = get k m2) -> m1 = m2.
Proof.
  induction m1 as [|[k v] m1 IH]; intros m2 W1 W2 H.
  - destruct m2 as [|[k v] m2]; auto. specialize (H k). simpl in H. rewrite N.eqb_refl in H. discriminate.
  - destruct m2 as [|[k2 v2] m2]; [specialize (H k); simpl in H; rewrite N.eqb_refl in H; discriminate|].
    destruct W1 as [A1 A2], W2 as [B1 B2].
    assert (k = k2).
    { assert (H1 := H k). assert (H2 := H k2). simpl in H1, H2. rewrite N.eqb_refl in H1, H2.
      destruct (N.eqb_spec k k2); auto. replace (k2 =? k)%N with false in H2 by lia.
      symmetry in H1. apply get_In in H1. apply get_In in H2.
      apply (in_map fst) in H1, H2. specialize (A1 _ H2). specialize (B1 _ H1). simpl in *. lia. }
    subst k2. assert (H1 := H k). simpl in H1. rewrite N.eqb_refl in H1. injection H1 as <-. f_equal.
    apply IH; auto. intros k'. specialize (H k'). simpl in H. destruct (N.eqb_spec k' k); auto. subst.
    transitivity (@None V); [|symmetry]; apply get_None; intros HI.
    + specialize (A1 _ HI). cbn [fst] in A1. lia.
    + specialize (B1 _ HI). cbn [fst] in B1. lia.
Qed.
End Maps.

Lemma get_map_val : forall {V W} (f : N -> V -> W) k (m : amap V),
  get k (map (fun p => (fst p, f (fst p) (snd p))) m) = omap (f k) (get k m).
Proof.
  induction m as [|[k' v] m IH]; simpl; auto. destruct (N.eqb_spec k k'); [subst; auto|auto].
Qed.
Lemma keys_map_val : forall {V W} (f : N -> V -> W) (m : amap V),
  keys (map (fun p => (fst p, f (fst p) (snd p))) m) = keys m.
Proof. intros. unfold keys. rewrite map_map. apply map_ext. reflexivity. Qed.
