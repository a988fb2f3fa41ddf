(* The k nearest of a list, and the searches of KnnModel against it. *)
From Coq Require Import List Arith NArith ZArith QArith Bool Lia Permutation Sorted.
From Verif Require Import Lib AMap RowIdsModel SerdeModel TreeMapModel DeletionModel TakeModel ScalarModel IndexExprModel ScanModel KnnModel.
Import ListNotations.
Local Open Scope nat_scope.

(* [res] are k of [C] (all if there are fewer), nearest first; nothing left out is nearer *)
Definition nearest {A} (key : A -> Q) (k : nat) (C res : list A) : Prop :=
  exists rest, Permutation C (res ++ rest) /\ length res = Nat.min k (length C) /\
    StronglySorted (fun a b => (key a <= key b)%Q) res /\ forall x y, In x res -> In y rest -> (key x <= key y)%Q.
(* lower bound included, upper bound excluded *)
Definition in_range (lo hi : option Q) (d : Q) : bool :=
  match lo with Some a => if Qlt_le_dec d a then false else true | None => true end && match hi with Some b => if Qlt_le_dec d b then true else false | None => true end.
Lemma in_range_spec : forall lo hi d, in_range lo hi d = true <-> (forall a, lo = Some a -> (a <= d)%Q) /\ (forall b, hi = Some b -> (d < b)%Q).
Proof.
  intros lo hi d. unfold in_range. rewrite andb_true_iff. split; intros [A B]; split.
  - intros a ->. destruct (Qlt_le_dec d a); [discriminate|assumption].
  - intros b ->. destruct (Qlt_le_dec d b); [assumption|discriminate].
  - destruct lo as [a|]; auto. destruct (Qlt_le_dec d a) as [L|]; auto. exfalso. exact (Qlt_not_le _ _ L (A a eq_refl)).
  - destruct hi as [b|]; auto. destruct (Qlt_le_dec d b) as [|L]; auto. exfalso. exact (Qlt_not_le _ _ (B b eq_refl) L).
Qed.
Lemma in_bounds_range : forall lo hi d, in_bounds lo hi d = in_range lo hi d.
Proof.
  intros lo hi d. unfold in_bounds, in_range. f_equal.
  - destruct lo as [a|]; auto. destruct (Qlt_le_dec d a) as [L|L].
    + apply not_true_iff_false. rewrite Qle_bool_iff. apply Qlt_not_le. exact L.
    + apply Qle_bool_iff. exact L.
  - destruct hi as [b|]; auto. destruct (Qlt_le_dec d b) as [L|L].
    + rewrite negb_true_iff, <- not_true_iff_false, Qle_bool_iff. apply Qlt_not_le. exact L.
    + rewrite negb_false_iff, Qle_bool_iff. exact L.
Qed.

(* ---- lemmas about [nearest] ---- *)
Lemma perm_filter : forall {A} (f : A -> bool) l m, Permutation l m -> Permutation (filter f l) (filter f m).
Proof.
  intros A f l m P. induction P; cbn; auto.
  - destruct (f x); auto.
  - destruct (f x), (f y); auto. apply perm_swap.
  - eapply perm_trans; eauto.
Qed.
Lemma filter_all : forall {A} (f : A -> bool) l, (forall x, In x l -> f x = true) -> filter f l = l.
Proof. induction l as [|a l IH]; intros H; cbn; auto. rewrite (H a (or_introl eq_refl)), IH; auto. intros x J. apply H. right. exact J. Qed.
Lemma filter_nil : forall {A} (f : A -> bool) l, (forall x, In x l -> f x = false) -> filter f l = [].
Proof. induction l as [|a l IH]; intros H; cbn; auto. rewrite (H a (or_introl eq_refl)). apply IH. intros x J. apply H. right. exact J. Qed.
Lemma filter_length : forall {A} (f : A -> bool) l, length (filter f l) <= length l.
Proof. induction l as [|a l IH]; cbn; auto. destruct (f a); cbn; lia. Qed.
Lemma filter_missing : forall {A} (f : A -> bool) l x, In x l -> f x = false -> length (filter f l) < length l.
Proof.
  induction l as [|a l IH]; intros x J F; [destruct J|]. cbn. destruct J as [->|J].
  - rewrite F. pose proof (filter_length f l). lia.
  - specialize (IH x J F). destruct (f a); cbn; lia.
Qed.
Lemma nearest_perm : forall {A} (key : A -> Q) k C C' res, Permutation C C' -> nearest key k C res -> nearest key k C' res.
Proof.
  intros A key k C C' res P [rest [P1 [L [S O]]]]. exists rest. split; [eapply perm_trans; [apply Permutation_sym; exact P|exact P1]|]. split; [rewrite <- (Permutation_length P); exact L|]. auto.
Qed.
Lemma nearest_of_sorted : forall {A} (key : A -> Q) k C l, Permutation C l -> StronglySorted (fun a b => (key a <= key b)%Q) l -> nearest key k C (firstn k l).
Proof.
  intros A key k C l P S. exists (skipn k l). rewrite firstn_skipn. split; [exact P|]. split; [rewrite firstn_length, (Permutation_length P); reflexivity|].
  rewrite <- (firstn_skipn k l) in S. revert S. generalize (firstn k l) as a. generalize (skipn k l) as b. clear. intros b a. induction a as [|x a IH]; cbn; intros S.
  - split; [constructor|intros ? ? []].
  - inversion S as [|? ? S1 F]; subst. apply IH in S1 as [S1 O]. rewrite Forall_forall in F. split.
    + constructor; auto. apply Forall_forall. intros y J. apply F. apply in_or_app. auto.
    + intros u v [<-|J] V; auto. apply F. apply in_or_app. auto.
Qed.
(* candidates may be replaced by their k' nearest *)
Lemma nearest_compose : forall {A} (key : A -> Q) k k' C B U res, nearest key k' C B -> k <= k' -> nearest key k (B ++ U) res -> nearest key k (C ++ U) res.
Proof.
  intros A key k k' C B U res [rb [PB [LB [SB OB]]]] K [rest [P [L [S O]]]].
  exists (rest ++ rb). pose proof (Permutation_length PB) as LC. rewrite app_length in LC. rewrite app_length in L. split; [|split; [|split; [exact S|]]].
  - eapply perm_trans; [apply Permutation_app_tail; exact PB|]. rewrite <- app_assoc. eapply perm_trans; [apply Permutation_app_head, Permutation_app_comm|]. rewrite !app_assoc. apply Permutation_app_tail. exact P.
  - rewrite app_length. lia.
  - intros x y X Y. apply in_app_or in Y as [Y|Y]; [apply O; auto|].
    assert (LK : length B = k'). { destruct rb; [destruct Y|]. cbn in LC. lia. }
    set (f := fun z => Qle_bool (key z) (key y)). destruct (f x) eqn:F; [apply Qle_bool_iff; exact F|]. exfalso.
    assert (NX : (key y < key x)%Q). { apply Qnot_le_lt. intros H. apply Qle_bool_iff in H. unfold f in F. congruence. }
    pose proof (Permutation_length (perm_filter f _ _ P)) as LF. rewrite !filter_app, !app_length in LF.
    rewrite (filter_all f B) in LF by (intros z Z; apply Qle_bool_iff; apply OB; auto).
    rewrite (filter_nil f rest) in LF.
    2:{ intros z Z. apply not_true_iff_false. unfold f. rewrite Qle_bool_iff. apply Qlt_not_le. eapply Qlt_le_trans; [exact NX|]. apply O; auto. }
    pose proof (filter_missing f res x X F). cbn in LF. lia.
Qed.
Lemma nearest_compose1 : forall {A} (key : A -> Q) k k' C B res, nearest key k' C B -> k <= k' -> nearest key k B res -> nearest key k C res.
Proof. intros A key k k' C B res H K H1. rewrite <- (app_nil_r B) in H1. rewrite <- (app_nil_r C). eapply nearest_compose; eauto. Qed.
Lemma nearest_concat : forall {A} (key : A -> Q) k k' Cs Bs, Forall2 (nearest key k') Cs Bs -> k <= k' -> forall U res, nearest key k (concat Bs ++ U) res -> nearest key k (concat Cs ++ U) res.
Proof.
  intros A key k k' Cs Bs F K. induction F as [|C B Cs Bs H F IH]; intros U res X; [exact X|]. cbn [concat] in *. rewrite <- app_assoc in *.
  apply nearest_perm with (C := concat Cs ++ (U ++ C)); [rewrite app_assoc; apply Permutation_app_comm|]. apply IH.
  apply nearest_perm with (C := C ++ (concat Bs ++ U)); [rewrite app_assoc; eapply perm_trans; [apply Permutation_app_comm|]; rewrite (app_assoc (concat Bs)); eapply perm_trans; [apply Permutation_app_comm|]; rewrite <- !app_assoc; eapply perm_trans; [apply Permutation_app_comm|]; rewrite <- app_assoc; apply Permutation_refl|].
  eapply nearest_compose; [exact H|exact K|exact X].
Qed.
Lemma nearest_unmap : forall {A B} (g : A -> B) (key : B -> Q) k C res, nearest key k (map g C) res -> exists res', res = map g res' /\ nearest (fun a => key (g a)) k C res'.
Proof.
  intros A B g key k C res [rest [P [L [S O]]]]. apply Permutation_sym in P. apply Permutation_map_inv in P as [l [E P]]. symmetry in E. apply map_eq_app in E as [a [b [-> [<- <-]]]].
  exists a. split; [reflexivity|]. exists b. split; [exact P|]. rewrite !map_length in L. split; [exact L|]. split.
  - clear -S. induction a as [|x a IH]; [constructor|]. cbn in S. inversion S as [|? ? S1 F]; subst. constructor; auto. apply Forall_forall. intros y J. rewrite Forall_forall in F. apply F. apply in_map. exact J.
  - intros x y X Y. apply O; apply in_map; assumption.
Qed.
Lemma nearest_incl : forall {A} (key : A -> Q) k C res, nearest key k C res -> incl res C.
Proof. intros A key k C res [rest [P _]] x J. eapply Permutation_in; [apply Permutation_sym; exact P|]. apply in_or_app. auto. Qed.
Lemma nearest_length : forall {A} (key : A -> Q) k C res, nearest key k C res -> length res <= k.
Proof. intros A key k C res [rest [_ [L _]]]. lia. Qed.

(* a key order with nulls last *)
Definition nulls_last (a b : option Q) : Prop := match a, b with Some x, Some y => (x <= y)%Q | None, Some _ => False | _, None => True end.
Definition sorts_keys (sort : forall A, (A -> option Q) -> list A -> list A) : Prop :=
  (forall A key l, Permutation (sort A key l) l) /\ forall A key l, StronglySorted (fun a b => nulls_last (key a) (key b)) (sort A key l).

Section Sort.
  Context {M : Type} (dist : M -> row -> option Q) (sort : forall A, (A -> option Q) -> list A -> list A) (SK : sorts_keys sort).

  Lemma top_nearest : forall {A} (key : A -> Q) k l, nearest key k l (top sort k (fun a => Some (key a)) l).
  Proof. intros A key k l. destruct SK as [P S]. apply nearest_of_sorted; [apply Permutation_sym, P|]. exact (S A (fun a => Some (key a)) l). Qed.
  (* the rows with a distance in the bounds, with it *)
  Definition near (m : M) (lo hi : option Q) (rows : list (N * row)) : list ((N * row) * Q) :=
    flat_map (fun p => match dist m (snd p) with Some d => if in_range lo hi d then [(p, d)] else [] | None => [] end) rows.

  Lemma keep_perm : forall {A} (l l' : list (A * option Q)), Permutation l l' -> Permutation (keep_some l) (keep_some l').
  Proof. intros A l l' P. unfold keep_some. apply Permutation_flat_map. exact P. Qed.
  Lemma keep_none : forall {A} (l : list (A * option Q)), (forall p, In p l -> snd p = None) -> keep_some l = [].
  Proof. induction l as [|p l IH]; intros H; cbn; auto. rewrite (H p (or_introl eq_refl)). apply IH. intros x J. apply H. right. exact J. Qed.
  Lemma firstn_in : forall {A} k (l : list A) x, In x (firstn k l) -> In x l.
  Proof. intros A k l x J. rewrite <- (firstn_skipn k l). apply in_or_app. auto. Qed.
  Lemma keep_firstn : forall {A} k (l : list (A * option Q)), StronglySorted (fun a b => nulls_last (snd a) (snd b)) l -> keep_some (firstn k l) = firstn k (keep_some l).
  Proof.
    intros A k l. revert k. induction l as [|[a [d|]] l IH]; intros k S; [destruct k; reflexivity| |]; inversion S as [|? ? S1 F]; subst; destruct k; try reflexivity.
    - cbn [firstn keep_some flat_map snd fst app]. f_equal. apply IH. exact S1.
    - rewrite Forall_forall in F. assert (NN : forall p, In p l -> snd p = None) by (intros p J; specialize (F p J); cbn in F; destruct (snd p); [contradiction|reflexivity]).
      assert (E : keep_some ((a, None) :: l) = []) by (apply keep_none; intros p [<-|J]; auto). rewrite E. rewrite keep_none; [destruct k; reflexivity|].
      intros p J. apply firstn_in in J. destruct J as [<-|J]; auto.
  Qed.
  Lemma keep_sorted : forall {A} (l : list (A * option Q)), StronglySorted (fun a b => nulls_last (snd a) (snd b)) l -> StronglySorted (fun a b => (snd a <= snd b)%Q) (keep_some l).
  Proof.
    intros A l S. induction S as [|[a [d|]] l S IH F]; cbn; [constructor| |exact IH]. constructor; auto. apply Forall_forall. intros [b e] J.
    apply in_flat_map in J as [[b' [e'|]] [J X]]; [|destruct X]. destruct X as [X|[]]. injection X as -> ->. rewrite Forall_forall in F. exact (F _ J).
  Qed.
  Lemma flat_knn_nearest : forall m k lo hi rows, nearest snd k (near m lo hi rows) (flat_knn dist sort m k lo hi rows).
  Proof.
    intros m k lo hi rows. unfold flat_knn, top. destruct SK as [P S]. rewrite keep_firstn by apply S. apply nearest_of_sorted; [|apply keep_sorted; apply S].
    eapply perm_trans; [|apply keep_perm, Permutation_sym, P].
    replace (near m lo hi rows) with (keep_some (filter (bound_filter lo hi) (map (fun p => (p, dist m (snd p))) rows))); [apply Permutation_refl|].
    induction rows as [|p rows IH]; [reflexivity|]. cbn [map filter near flat_map]. fold (near m lo hi rows). rewrite <- IH. unfold bound_filter at 1. cbn [snd]. destruct (dist m (snd p)) as [d|] eqn:E.
    - rewrite in_bounds_range. destruct (in_range lo hi d) eqn:R.
      + replace (match lo with Some _ => true | None => match hi with Some _ => true | None => true end end) with true by (destruct lo, hi; reflexivity). destruct lo, hi; cbn [keep_some flat_map snd fst app]; rewrite ?E; reflexivity.
      + assert (H : (match lo, hi with None, None => true | _, _ => false end) = false) by (unfold in_range in R; destruct lo, hi; auto). destruct lo, hi; cbn [app]; try reflexivity. discriminate.
    - destruct lo, hi; cbn [app keep_some flat_map snd fst]; rewrite ?E; reflexivity.
  Qed.
  Lemma near_app : forall m lo hi a b, near m lo hi (a ++ b) = near m lo hi a ++ near m lo hi b.
  Proof. intros. unfold near. apply flat_map_app. Qed.
  Lemma near_of_near : forall m lo hi rows l, incl l (near m lo hi rows) -> near m lo hi (map fst l) = l.
  Proof.
    intros m lo hi rows l. induction l as [|[p d] l IH]; intros I; [reflexivity|]. cbn [map near flat_map]. fold (near m lo hi (map fst l)). rewrite IH by (intros x J; apply I; right; exact J).
    specialize (I _ (or_introl eq_refl)). apply in_flat_map in I as [p' [_ I]]. destruct (dist m (snd p')) as [d'|] eqn:E; [|destruct I]. destruct (in_range lo hi d') eqn:R; [|destruct I]. destruct I as [I|[]].
    injection I as -> ->. cbn [fst snd]. rewrite E, R. reflexivity.
  Qed.
  Lemma near_In : forall m lo hi rows p d, In (p, d) (near m lo hi rows) <-> In p rows /\ dist m (snd p) = Some d /\ in_range lo hi d = true.
  Proof.
    intros m lo hi rows p d. unfold near. rewrite in_flat_map. split.
    - intros [p' [J X]]. destruct (dist m (snd p')) as [d'|] eqn:E; [|destruct X]. destruct (in_range lo hi d') eqn:R; [|destruct X]. destruct X as [X|[]]. injection X as -> ->. auto.
    - intros [J [E R]]. exists p. rewrite E, R. cbn. auto.
  Qed.
  Lemma near_perm : forall m lo hi a b, Permutation a b -> Permutation (near m lo hi a) (near m lo hi b).
  Proof. intros. apply Permutation_flat_map. assumption. Qed.

  (* ---- the index ---- *)
  Definition sel_opt (msk : option mask) (id : N) : bool := match msk with Some m => selected m id | None => true end.
  Definition hits (msk : option mask) (lo hi : option Q) (d : delta) : list (N * Q) := filter (fun p => sel_opt msk (fst p) && in_range lo hi (snd p)) (dl_entries d).
  Lemma filter_and : forall {A} (f g : A -> bool) l, filter f (filter g l) = filter (fun a => g a && f a) l.
  Proof. intros A f g l. induction l as [|a l IH]; cbn; auto. destruct (g a); cbn; [destruct (f a); rewrite IH; reflexivity|exact IH]. Qed.
  Lemma filter_flat_map : forall {A B} (f : B -> bool) (g : A -> list B) l, filter f (flat_map g l) = flat_map (fun a => filter f (g a)) l.
  Proof. intros A B f g l. induction l as [|a l IH]; cbn; auto. rewrite filter_app, IH. reflexivity. Qed.
  Lemma sub_nearest : forall msk k lo hi entries, nearest snd k (filter (fun p => sel_opt msk (fst p) && in_range lo hi (snd p)) entries) (sub_search sort msk k lo hi entries).
  Proof.
    intros msk k lo hi entries. unfold sub_search. rewrite filter_and.
    replace (filter (fun a => (match msk with Some m => selected m (fst a) | None => true end) && in_bounds lo hi (snd a)) entries) with (filter (fun p => sel_opt msk (fst p) && in_range lo hi (snd p)) entries).
    2:{ apply filter_ext. intros a. unfold sel_opt. rewrite in_bounds_range. reflexivity. }
    apply (top_nearest snd).
  Qed.
  Lemma probed_all : forall n parts, length parts <= n -> Permutation (probed sort n parts) parts.
  Proof. intros n parts L. unfold probed, top. destruct SK as [P _]. rewrite firstn_all2; [apply P|]. rewrite (Permutation_length (P _ _ _)). exact L. Qed.
  Lemma probed_some : forall n parts, exists rest, Permutation parts (probed sort n parts ++ rest).
  Proof. intros n parts. unfold probed. destruct (top_nearest (fun p : Q * list (N * Q) => fst p) n parts) as [rest [P _]]. exists rest. exact P. Qed.
  (* every partition probed: the nearest of the delta's hits *)
  Lemma delta_concat : forall msk n k lo hi d U k0 res, length (dl_parts d) <= n -> k0 <= k ->
    nearest snd k0 (search_delta sort msk n k lo hi d ++ U) res -> nearest snd k0 (hits msk lo hi d ++ U) res.
  Proof.
    intros msk n k lo hi d U k0 res L K X. unfold search_delta in X. rewrite flat_map_concat_map in X.
    apply nearest_concat with (k' := k) (Cs := map (fun p => filter (fun p => sel_opt msk (fst p) && in_range lo hi (snd p)) (snd p)) (probed sort n (dl_parts d))) in X; [|clear -SK|exact K].
    - eapply nearest_perm; [|exact X]. apply Permutation_app_tail. rewrite <- flat_map_concat_map. unfold hits, dl_entries. rewrite filter_flat_map. apply Permutation_flat_map. apply probed_all. exact L.
    - induction (probed sort n (dl_parts d)) as [|p l IH]; cbn; constructor; auto. apply sub_nearest.
  Qed.
  Lemma deltas_concat : forall n k lo hi pairs U k0 res, (forall msk d, In (msk, d) pairs -> length (dl_parts d) <= n) -> k0 <= k ->
    nearest snd k0 (concat (map (fun '(msk, d) => search_delta sort msk n k lo hi d) pairs) ++ U) res ->
    nearest snd k0 (concat (map (fun '(msk, d) => hits msk lo hi d) pairs) ++ U) res.
  Proof.
    intros n k lo hi pairs. induction pairs as [|[msk d] pairs IH]; intros U k0 res L K X; [exact X|]. cbn [map concat] in *. rewrite <- app_assoc in *.
    apply delta_concat in X; [|apply (L msk); left; reflexivity|exact K]. eapply nearest_perm; [|apply IH with (U := hits msk lo hi d ++ U); [intros m0 d0 J; apply (L m0); right; exact J|exact K|eapply nearest_perm; [|exact X]]].
    - rewrite !app_assoc. apply Permutation_app_tail. apply Permutation_app_comm.
    - rewrite !app_assoc. apply Permutation_app_tail. apply Permutation_app_comm.
  Qed.
  (* any number of probes: what is found is among the hits *)
  Lemma delta_found : forall msk n k lo hi d p, In p (search_delta sort msk n k lo hi d) -> In p (hits msk lo hi d).
  Proof.
    intros msk n k lo hi d p J. apply in_flat_map in J as [q [Jq J]]. apply (nearest_incl snd _ _ _ (sub_nearest msk k lo hi (snd q))) in J. apply filter_In in J as [J F].
    apply filter_In. split; [|exact F]. apply in_flat_map. exists q. split; [|exact J]. destruct (probed_some n (dl_parts d)) as [rest P]. eapply Permutation_in; [apply Permutation_sym; exact P|]. apply in_or_app. auto.
  Qed.
End Sort.
