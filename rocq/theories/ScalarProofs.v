(* Proofs about the B-tree and flat scalar indices (C59). *)
From Coq Require Import List Arith NArith ZArith Lia Bool Sorted.
From Verif Require Import Lib AMap RowIdsModel SerdeModel TreeMapModel TreeMapProofs ScalarModel.
Import ListNotations.

(* ---- the claim: which values satisfy a query ---- *)
Definition lower_ok (lo : vbound) (x : Z) : Prop :=
  match lo with VUnb => True | VInc (Some a) => (a <= x)%Z | VExc (Some a) => (a < x)%Z | VInc None | VExc None => False end.
Definition upper_ok (hi : vbound) (x : Z) : Prop :=
  match hi with VUnb => True | VInc (Some b) => (x <= b)%Z | VExc (Some b) => (x < b)%Z | VInc None | VExc None => False end.
Definition matches (q : query) (v : value) : Prop :=
  match q with
  | QEq w => v = w
  | QIn l => In v l
  | QNull => v = None
  | QRange lo hi => exists x, v = Some x /\ lower_ok lo x /\ upper_ok hi x
  end.
(* a range query has a bound, and its bounds are not crossed *)
Definition bounds_value (b : vbound) : option value := match b with VUnb => None | VInc v | VExc v => Some v end.
Definition query_ok (q : query) : Prop :=
  match q with
  | QRange lo hi => (lo <> VUnb \/ hi <> VUnb) /\
      (forall a b, bounds_value lo = Some (Some a) -> bounds_value hi = Some (Some b) -> (a <= b)%Z) /\
      (forall a, bounds_value lo = Some (Some a) -> bounds_value hi <> Some None)
  | _ => True
  end.
(* the row-id set s holds exactly the ids of the rows satisfying q *)
Definition answers (s : tmap) (rows : list vrow) (q : query) : Prop :=
  forall id, (id < two64)%N -> (t_contains id s = true <-> exists v, In (v, id) rows /\ matches q v).
Definition ids_ok (rows : list vrow) : Prop := Forall (fun r => (snd r < two64)%N) rows.

(* ---- the order on values ---- *)
Lemma vle_refl : forall a, vle a a = true.
Proof. intros [x|]; cbn; [apply Z.leb_refl|reflexivity]. Qed.
Lemma vle_trans : forall a b c, vle a b = true -> vle b c = true -> vle a c = true.
Proof. intros [x|] [y|] [z|]; cbn; rewrite ?Z.leb_le; intros; try lia; try discriminate; reflexivity. Qed.
Lemma vle_antisym : forall a b, vle a b = true -> vle b a = true -> a = b.
Proof. intros [x|] [y|]; cbn; rewrite ?Z.leb_le; intros; try discriminate; try reflexivity. f_equal. lia. Qed.
Lemma vle_total : forall a b, vle a b = false -> vle b a = true.
Proof. intros [x|] [y|]; cbn; rewrite ?Z.leb_le, ?Z.leb_gt; intros; try discriminate; try reflexivity. lia. Qed.
Lemma vlt_iff : forall a b, vlt a b = true <-> vle b a = false.
Proof. intros. unfold vlt. rewrite negb_true_iff. reflexivity. Qed.
Lemma vlt_le : forall a b, vlt a b = true -> vle a b = true.
Proof. intros a b H. apply vlt_iff in H. apply vle_total. exact H. Qed.
Lemma vlt_le_trans : forall a b c, vlt a b = true -> vle b c = true -> vlt a c = true.
Proof. intros a b c H1 H2. apply vlt_iff. apply vlt_iff in H1. destruct (vle c a) eqn:E; [|reflexivity]. rewrite (vle_trans _ _ _ H2 E) in H1. discriminate. Qed.
Lemma vle_lt_trans : forall a b c, vle a b = true -> vlt b c = true -> vlt a c = true.
Proof. intros a b c H1 H2. apply vlt_iff. apply vlt_iff in H2. destruct (vle c a) eqn:E; [|reflexivity]. rewrite (vle_trans _ _ _ E H1) in H2. discriminate. Qed.
Lemma vlt_irrefl : forall a, vlt a a = false.
Proof. intros. unfold vlt. rewrite vle_refl. reflexivity. Qed.
Lemma vlt_false : forall a b, vlt a b = false <-> vle b a = true.
Proof. intros. unfold vlt. rewrite negb_false_iff. reflexivity. Qed.
Lemma veq_true : forall a b, veq a b = true <-> a = b.
Proof. intros. unfold veq. rewrite andb_true_iff. split; [intros [A B]; apply vle_antisym; assumption|intros ->; rewrite vle_refl; auto]. Qed.
Lemma veq_false : forall a b, veq a b = false <-> a <> b.
Proof. intros. rewrite <- veq_true. destruct (veq a b); split; congruence. Qed.

(* ---- flat search ---- *)
Lemma sequence_some : forall {A B} (f : A -> option B) (g : A -> B) l, (forall x, In x l -> f x = Some (g x)) -> sequence_opt (map f l) = Some (map g l).
Proof. induction l as [|x l IH]; intros H; [reflexivity|]. cbn. rewrite (H x (or_introl eq_refl)), IH by (intros; apply H; right; assumption). reflexivity. Qed.
Lemma filter_combine_map : forall {A B} (g : A -> B) (f : B -> bool) l, map fst (filter (fun x => f (snd x)) (combine l (map g l))) = filter (fun a => f (g a)) l.
Proof. induction l as [|x l IH]; [reflexivity|]. cbn. destruct (f (g x)); cbn; rewrite IH; reflexivity. Qed.
Definition pred_val (has_nulls : bool) (q : query) (v : value) : option bool := match flat_pred has_nulls q v with Some p => p | None => None end.
Lemma flat_pred_some : forall h q v, query_ok q -> exists p, flat_pred h q v = Some p.
Proof.
  intros h q v H. destruct q as [[w|]|lo hi|l|]; cbn; eauto. destruct H as [[H|H] _]; destruct lo, hi; eauto; contradiction.
Qed.
Lemma flat_pred_spec : forall h q v, query_ok q -> (v = None -> h = true) -> (pred_val h q v = Some true <-> matches q v).
Proof.
  intros h q v OK H. unfold pred_val. destruct q as [w|lo hi|l|].
  - destruct w as [w|]; cbn.
    + destruct v as [x|]; cbn; [|split; discriminate]. rewrite <- veq_true. destruct (veq (Some x) (Some w)); split; auto; congruence.
    + destruct v; cbn; split; try discriminate; auto.
  - assert (X : flat_pred h (QRange lo hi) v = Some (let p := and3 (match lo with VUnb => Some true | VInc w => cmp3 vle w v | VExc w => cmp3 vlt w v end)
       (match hi with VUnb => Some true | VInc w => cmp3 vle v w | VExc w => cmp3 vlt v w end) in if h then and3 (Some (negb (is_none v))) p else p)).
    { cbn. destruct OK as [[N|N] _]; destruct lo, hi; try reflexivity; contradiction. }
    rewrite X. cbn zeta. destruct v as [x|].
    + assert (Z0 : forall p, (if h then and3 (Some (negb (is_none (Some x)))) p else p) = p) by (intros p; destruct h; [|reflexivity]; cbn [is_none negb]; destruct p as [[|]|]; reflexivity).
      rewrite Z0. clear Z0 X.
      assert (L : (match lo with VUnb => Some true | VInc w => cmp3 vle w (Some x) | VExc w => cmp3 vlt w (Some x) end) = Some true <-> lower_ok lo x).
      { destruct lo as [|[a|]|[a|]]; cbn; try (split; auto; discriminate); try (split; [discriminate|contradiction]).
        - destruct (Z.leb_spec a x); split; auto; try discriminate; lia.
        - unfold vlt. cbn. destruct (Z.leb_spec x a); cbn; split; auto; try discriminate; lia. }
      assert (U : (match hi with VUnb => Some true | VInc w => cmp3 vle (Some x) w | VExc w => cmp3 vlt (Some x) w end) = Some true <-> upper_ok hi x).
      { destruct hi as [|[a|]|[a|]]; cbn; try (split; auto; discriminate); try (split; [discriminate|contradiction]).
        - destruct (Z.leb_spec x a); split; auto; try discriminate; lia.
        - unfold vlt. cbn. destruct (Z.leb_spec a x); cbn; split; auto; try discriminate; lia. }
      cbn [matches]. split.
      * intros E. exists x. split; [reflexivity|].
        destruct (match lo with VUnb => Some true | VInc w => cmp3 vle w (Some x) | VExc w => cmp3 vlt w (Some x) end) as [[|]|];
        destruct (match hi with VUnb => Some true | VInc w => cmp3 vle (Some x) w | VExc w => cmp3 vlt (Some x) w end) as [[|]|]; try discriminate E. split; [apply L|apply U]; reflexivity.
      * intros [y [E [A B]]]. injection E as <-. apply L in A. apply U in B. rewrite A, B. reflexivity.
    + cbn [matches]. split; [|intros [x [E _]]; discriminate]. intros E. rewrite (H eq_refl) in E. cbn in E. destruct (and3 _ _) as [[|]|]; discriminate E.
  - cbn. destruct v as [x|].
    + assert (P : existsb (fun w => match cmp3 veq (Some x) w with Some true => true | _ => false end) l = true <-> In (Some x) l).
      { rewrite existsb_exists. split.
        - intros [[w|] [I E]]; cbn in E; [|discriminate]. destruct (veq (Some x) (Some w)) eqn:V; [|discriminate]. apply veq_true in V. rewrite V. exact I.
        - intros I. exists (Some x). split; [exact I|]. cbn [cmp3]. rewrite (proj2 (veq_true (Some x) (Some x)) eq_refl). reflexivity. }
      destruct (existsb is_none l && h); cbn [is_none]; rewrite ?orb_false_r; rewrite <- P; destruct (existsb _ l); split; auto; congruence.
    + rewrite (H eq_refl). assert (P : existsb (fun w => match cmp3 veq None w with Some true => true | _ => false end) l = false).
      { induction l as [|w l IH]; [reflexivity|]. cbn. destruct w; exact (IH Logic.I). }
      rewrite P. assert (Q : existsb is_none l = true <-> In None l).
      { rewrite existsb_exists. split; [intros [[w|] [I E]]; [discriminate|exact I]|intros I; exists None; auto]. }
      rewrite <- Q. destruct (existsb is_none l); cbn; split; auto; congruence.
  - cbn. destruct v; cbn; split; try discriminate; auto.
Qed.
Lemma from_iter_wf : forall ids m, t_wf m -> t_wf (t_extend ids m).
Proof. induction ids as [|x l IH]; intros m W; [exact W|]. cbn. apply IH. apply insert_wf. exact W. Qed.
Lemma nil_wf : t_wf [].
Proof. split; [exact I|constructor]. Qed.
Lemma flat_search_spec : forall q page, query_ok q -> ids_ok page -> exists s, flat_search q page = Some s /\ t_wf s /\ answers s page q.
Proof.
  intros q page OK IDS. unfold flat_search. set (h := existsb (fun r => is_none (fst r)) page).
  rewrite (sequence_some (fun r : vrow => flat_pred h q (fst r)) (fun r => pred_val h q (fst r))) by (intros r _; unfold pred_val; destruct (flat_pred_some h q (fst r) OK) as [p E]; rewrite E; reflexivity).
  set (s := t_from_iter _).
  assert (E : (match q with QRange VUnb VUnb => None | _ => Some s end) = Some s).
  { destruct q as [| [| |] [| |]| |]; try reflexivity. destruct OK as [[N|N] _]; contradiction. }
  exists s. split; [exact E|]. split; [apply from_iter_wf; apply nil_wf|]. intros id Hid. unfold s.
  rewrite (filter_combine_map (fun r : vrow => pred_val h q (fst r)) (fun p => match p with Some true => true | _ => false end) page).
  unfold t_from_iter. rewrite extend_spec; [|apply Forall_forall; intros v I; apply in_map_iff in I as [r [<- I]]; apply filter_In in I as [I _]; unfold ids_ok in IDS; rewrite Forall_forall in IDS; apply IDS; exact I|exact Hid].
  rewrite orb_true_iff, memN_In, in_map_iff.
  assert (HN : forall v i, In (v, i) page -> v = None -> h = true) by (intros v i I ->; unfold h; apply existsb_exists; exists (None, i); auto).
  split.
  - intros [[[v i] [Ei I]]|I]; [|discriminate]. cbn in Ei. subst i. apply filter_In in I as [I P]. exists v. split; [exact I|]. cbn [fst] in P.
    apply (flat_pred_spec h q v OK (HN v id I)). destruct (pred_val h q v) as [[|]|]; try discriminate. reflexivity.
  - intros [v [I M]]. left. exists (v, id). split; [reflexivity|]. apply filter_In. split; [exact I|]. cbn [fst]. apply (flat_pred_spec h q v OK (HN v id I)) in M. rewrite M. reflexivity.
Qed.

(* ---- the tree ---- *)
Fixpoint ksorted {V} (m : vmap V) : Prop :=
  match m with [] => True | (k, _) :: t => (forall k', In k' (map fst t) -> vlt k k' = true) /\ ksorted t end.
Lemma ventry_keys : forall {V} k (d : V) f m k', In k' (map fst (ventry k d f m)) <-> k' = k \/ In k' (map fst m).
Proof.
  intros V k d f. induction m as [|[k0 v0] m IH]; intros k'; [cbn; intuition congruence|]. cbn [ventry]. destruct (veq k k0) eqn:E.
  - apply veq_true in E. subst k0. cbn. intuition congruence.
  - destruct (vlt k k0); cbn [map fst In]; [cbn; intuition congruence|]. rewrite IH. intuition congruence.
Qed.
Lemma ventry_sorted : forall {V} k (d : V) f m, ksorted m -> ksorted (ventry k d f m).
Proof.
  intros V k d f. induction m as [|[k0 v0] m IH]; intros S; [cbn; split; [intros k' []|exact I]|]. cbn [ventry]. destruct S as [S1 S2]. destruct (veq k k0) eqn:E; [split; assumption|].
  destruct (vlt k k0) eqn:L.
  - cbn [ksorted map fst]. split; [|split; assumption]. intros k' [<-|H]; [exact L|]. apply (vlt_le_trans k k0); [exact L|apply vlt_le; apply S1; exact H].
  - cbn [ksorted]. split; [|apply IH; exact S2]. intros k' H. apply ventry_keys in H as [->|H]; [|apply S1; exact H].
    apply vlt_false in L. apply vlt_iff. destruct (vle k k0) eqn:X; [|reflexivity]. exfalso. apply veq_false in E. apply E. apply vle_antisym; assumption.
Qed.
Definition rec_at (m : vmap (list prec)) (k : value) (r : prec) : Prop := exists rs, In (k, rs) m /\ In r rs.
Lemma ventry_rec : forall k r0 m k' r, rec_at (ventry k [] (fun v => v ++ [r0]) m) k' r <-> rec_at m k' r \/ (k' = k /\ r = r0).
Proof.
  intros k r0. induction m as [|[k0 v0] m IH]; intros k' r; cbn [ventry].
  - unfold rec_at. cbn. split; [intros [rs [[E|[]] I]]; injection E as <- <-; cbn in I; destruct I as [<-|[]]; auto|intros [[rs [[] _]]|[-> ->]]; eauto].
    exists [r0]. cbn. auto.
  - destruct (veq k k0) eqn:E.
    + apply veq_true in E. subst k0. unfold rec_at. cbn. split.
      * intros [rs [[E|I] J]]; [injection E as <- <-; apply in_app_iff in J as [J|[<-|[]]]; [left; eauto|auto]|left; eauto].
      * intros [[rs [[E|I] J]]|[-> ->]]; [injection E as <- <-; exists (v0 ++ [r0]); rewrite in_app_iff; auto|eauto|exists (v0 ++ [r0]); rewrite in_app_iff; cbn; auto].
    + destruct (vlt k k0).
      * unfold rec_at. cbn. split.
        -- intros [rs [[E'|I] J]]; [injection E' as <- <-; cbn in J; destruct J as [<-|[]]; auto|left; eauto].
        -- intros [[rs [I J]]|[-> ->]]; [eauto|exists [r0]; cbn; auto].
      * assert (X : forall mm, rec_at ((k0, v0) :: mm) k' r <-> (k' = k0 /\ In r v0) \/ rec_at mm k' r).
        { intros mm. unfold rec_at. cbn. split; [intros [rs [[E'|I] J]]; [injection E' as <- <-; auto|right; eauto]|intros [[-> J]|[rs [I J]]]; eauto]. }
        rewrite !X, IH. tauto.
Qed.
Lemma ventry_id_rec : forall k m k' r, rec_at (ventry k [] (fun v => v) m) k' r <-> rec_at m k' r.
Proof.
  intros k. induction m as [|[k0 v0] m IH]; intros k' r; cbn [ventry].
  - unfold rec_at. cbn. split; [intros [rs [[E|[]] I]]; injection E as <- <-; destruct I|intros [rs [[] _]]].
  - assert (X : forall k1 v1 mm, rec_at ((k1, v1) :: mm) k' r <-> (k' = k1 /\ In r v1) \/ rec_at mm k' r).
    { intros k1 v1 mm. unfold rec_at. cbn. split; [intros [rs [[E'|I] J]]; [injection E' as <- <-; auto|right; eauto]|intros [[-> J]|[rs [I J]]]; eauto]. }
    destruct (veq k k0); [reflexivity|]. destruct (vlt k k0); rewrite !X; [cbn; tauto|]. rewrite IH. tauto.
Qed.
Lemma largest_spec : forall m key, ksorted m ->
  match largest_node_less key m with
  | Some k => In k (map fst m) /\ vlt k key = true /\ (forall k', In k' (map fst m) -> vlt k' key = true -> vle k' k = true)
  | None => forall k', In k' (map fst m) -> vlt k' key = false
  end.
Proof.
  unfold largest_node_less. intros m key.
  assert (G : forall (m : vmap (list prec)) acc, ksorted m -> (forall a, acc = Some a -> vlt a key = true /\ forall k', In k' (map fst m) -> vlt a k' = true) ->
    match fold_left (fun acc p => if vlt (fst p) key then Some (fst p) else acc) m acc with
    | Some k => (In k (map fst m) \/ acc = Some k) /\ vlt k key = true /\ (forall k', In k' (map fst m) -> vlt k' key = true -> vle k' k = true)
    | None => acc = None /\ forall k', In k' (map fst m) -> vlt k' key = false
    end).
  { clear m. induction m as [|[k v] m IH]; intros acc S H; cbn [fold_left map fst].
    - destruct acc as [a|]; [|split; [reflexivity|intros k' []]]. destruct (H a eq_refl) as [A _]. split; [auto|]. split; [exact A|intros k' []].
    - destruct S as [S1 S2]. destruct (vlt k key) eqn:L.
      + specialize (IH (Some k) S2). destruct (fold_left _ m (Some k)) as [z|] eqn:F.
        * destruct IH as [I1 [I2 I3]]; [intros a E; injection E as <-; auto|]. split; [left; destruct I1 as [I1|I1]; [right; exact I1|injection I1 as ->; left; reflexivity]|]. split; [exact I2|].
          intros k' [<-|J] Lk; [|apply I3; assumption]. destruct I1 as [I1|I1]; [apply vlt_le; apply S1; exact I1|injection I1 as ->; apply vle_refl].
        * destruct IH as [I1 _]; [intros a E; injection E as <-; auto|]. discriminate.
      + specialize (IH acc S2). destruct (fold_left _ m acc) as [z|] eqn:F.
        * destruct IH as [I1 [I2 I3]]; [intros a E; destruct (H a E) as [A B]; split; [exact A|intros k' J; apply B; right; exact J]|]. split; [destruct I1; [left; right; assumption|auto]|]. split; [exact I2|].
          intros k' [<-|J] Lk; [congruence|apply I3; assumption].
        * destruct IH as [I1 I2]; [intros a E; destruct (H a E) as [A B]; split; [exact A|intros k' J; apply B; right; exact J]|]. split; [exact I1|]. intros k' [<-|J]; [exact L|apply I2; exact J]. }
  intros S. specialize (G m None S). destruct (fold_left _ m None).
  - destruct G as [[A|A] [B C]]; [intros a E; discriminate| |discriminate]. auto.
  - destruct G as [_ G]; [intros a E; discriminate|]. exact G.
Qed.

(* ---- statistics ---- *)
Lemma page_min_spec : forall p, match page_min p with
  | Some x => (exists i, In (Some x, i) p) /\ (forall y i, In (Some y, i) p -> (x <= y)%Z)
  | None => forall y i, ~ In (Some y, i) p
  end.
Proof.
  induction p as [|[v i] p IH]; cbn [page_min fold_right fst]; [intros y i []|]. fold (page_min p). destruct v as [a|], (page_min p) as [x|]; cbn [opt_min].
  - destruct IH as [[j J] L]. split.
    + destruct (Z.min_spec a x) as [[_ ->]|[_ ->]]; [exists i; left; reflexivity|exists j; right; exact J].
    + intros y k [E|K]; [injection E as -> ->; lia|apply L in K; lia].
  - split; [exists i; left; reflexivity|]. intros y k [E|K]; [injection E as -> ->; lia|exfalso; exact (IH y k K)].
  - destruct IH as [[j J] L]. split; [exists j; right; exact J|]. intros y k [E|K]; [discriminate|eapply L; exact K].
  - intros y k [E|K]; [discriminate|exact (IH y k K)].
Qed.
Lemma page_max_spec : forall p, match page_max p with
  | Some x => (exists i, In (Some x, i) p) /\ (forall y i, In (Some y, i) p -> (y <= x)%Z)
  | None => forall y i, ~ In (Some y, i) p
  end.
Proof.
  induction p as [|[v i] p IH]; cbn [page_max fold_right fst]; [intros y i []|]. fold (page_max p). destruct v as [a|], (page_max p) as [x|]; cbn [opt_max].
  - destruct IH as [[j J] L]. split.
    + destruct (Z.max_spec a x) as [[_ ->]|[_ ->]]; [exists j; right; exact J|exists i; left; reflexivity].
    + intros y k [E|K]; [injection E as -> ->; lia|apply L in K; lia].
  - split; [exists i; left; reflexivity|]. intros y k [E|K]; [injection E as -> ->; lia|exfalso; exact (IH y k K)].
  - destruct IH as [[j J] L]. split; [exists j; right; exact J|]. intros y k [E|K]; [discriminate|eapply L; exact K].
  - intros y k [E|K]; [discriminate|exact (IH y k K)].
Qed.
Lemma null_count_pos : forall p, 0 < null_count p <-> exists i, In (None, i) p.
Proof.
  intros p. unfold null_count. split.
  - intros H. destruct (filter (fun r : vrow => is_none (fst r)) p) as [|[v i] t] eqn:E; [cbn in H; lia|]. assert (I : In (v, i) (filter (fun r : vrow => is_none (fst r)) p)) by (rewrite E; left; reflexivity).
    apply filter_In in I as [I N]. destruct v; [discriminate|]. eauto.
  - intros [i I]. assert (J : In (None, i) (filter (fun r : vrow => is_none (fst r)) p)) by (apply filter_In; auto). destruct (filter _ p); [destruct J|cbn; lia].
Qed.
Lemma stats_nth : forall batches i j, nth_error (stats_from i batches) j =
  match nth_error batches j with Some b => Some {| st_min := page_min b; st_max := page_max b; st_nulls := null_count b; st_page := i + N.of_nat j |} | None => None end.
Proof.
  induction batches as [|b t IH]; intros i [|j]; cbn [stats_from nth_error]; try reflexivity; [rewrite N.add_0_r; reflexivity|]. rewrite IH. destruct (nth_error t j); [|reflexivity]. do 2 f_equal. lia.
Qed.
Lemma stats_In : forall batches s, In s (stats_from 0 batches) <-> exists j b, nth_error batches j = Some b /\ s = {| st_min := page_min b; st_max := page_max b; st_nulls := null_count b; st_page := N.of_nat j |}.
Proof.
  intros. split.
  - intros I. apply In_nth_error in I as [j I]. rewrite stats_nth in I. destruct (nth_error batches j) as [b|] eqn:E; [|discriminate]. exists j, b. split; [exact E|]. injection I as <-. f_equal.
  - intros [j [b [E ->]]]. apply (nth_error_In _ j). rewrite stats_nth, E. reflexivity.
Qed.
Lemma fold_stats : forall stats l, ksorted (lk_tree l) ->
  let r := fold_left add_stat stats l in
  ksorted (lk_tree r) /\
  (forall k, In k (map fst (lk_tree r)) <-> In k (map fst (lk_tree l)) \/ exists s, In s stats /\ st_max s <> None /\ k = st_min s) /\
  (forall k p, rec_at (lk_tree r) k p <-> rec_at (lk_tree l) k p \/ exists s, In s stats /\ st_max s <> None /\ k = st_min s /\ p = {| pr_max := st_max s; pr_page := st_page s |}) /\
  (lk_nulls r = lk_nulls l ++ map st_page (filter (fun s => 0 <? st_nulls s) stats)).
Proof.
  induction stats as [|s stats IH]; intros l S; cbn [fold_left].
  - split; [exact S|]. split; [intros k; split; [auto|intros [H|[s [[] _]]]; exact H]|]. split; [intros k p; split; [auto|intros [H|[s [[] _]]]; exact H]|]. cbn. rewrite app_nil_r. reflexivity.
  - assert (S' : ksorted (lk_tree (add_stat l s))) by (cbn; destruct (is_none (st_max s)); [exact S|apply ventry_sorted; exact S]).
    destruct (IH (add_stat l s) S') as [A [B [C D]]]. split; [exact A|]. split; [|split].
    + intros k. rewrite B. cbn [add_stat lk_tree]. destruct (st_max s) as [x|] eqn:M; cbn [is_none].
      * rewrite ventry_keys. split.
        -- intros [[->|H]|[s' [I [N E]]]]; [right; exists s; split; [left; reflexivity|split; [congruence|reflexivity]]|auto|right; exists s'; split; [right; exact I|auto]].
        -- intros [H|[s' [[<-|I] [N E]]]]; [auto|auto|right; eauto].
      * split; [intros [H|[s' [I R]]]; [auto|right; exists s'; split; [right; exact I|exact R]]|intros [H|[s' [[<-|I] [N E]]]]; [auto|congruence|right; eauto]].
    + intros k p. rewrite C. cbn [add_stat lk_tree]. destruct (st_max s) as [x|] eqn:M; cbn [is_none].
      * rewrite ventry_rec. split.
        -- intros [[H|[-> ->]]|[s' [I R]]]; [auto|right; exists s; split; [left; reflexivity|rewrite M; split; [congruence|auto]]|right; exists s'; split; [right; exact I|exact R]].
        -- intros [H|[s' [[<-|I] [N [-> ->]]]]]; [auto|rewrite M; auto|right; exists s'; auto].
      * split; [intros [H|[s' [I R]]]; [auto|right; exists s'; split; [right; exact I|exact R]]|intros [H|[s' [[<-|I] [N R]]]]; [auto|congruence|right; exists s'; auto]].
    + rewrite D. cbn [add_stat lk_nulls filter]. destruct (0 <? st_nulls s); [|reflexivity]. cbn [map]. rewrite <- app_assoc. reflexivity.
Qed.
Definition last_max (stats : list stat) : option value := match rev stats with [] => None | s :: _ => Some (st_max s) end.
Lemma load_spec : forall batches, let l := load_lookup (stats_from 0 batches) in
  ksorted (lk_tree l) /\
  (forall k, In k (map fst (lk_tree l)) <-> last_max (stats_from 0 batches) = Some k \/ exists j b, nth_error batches j = Some b /\ page_max b <> None /\ k = page_min b) /\
  (forall k p, rec_at (lk_tree l) k p <-> exists j b, nth_error batches j = Some b /\ page_max b <> None /\ k = page_min b /\ p = {| pr_max := page_max b; pr_page := N.of_nat j |}) /\
  (lk_nulls l = map st_page (filter (fun s => 0 <? st_nulls s) (stats_from 0 batches))).
Proof.
  intros batches. destruct (fold_stats (stats_from 0 batches) {| lk_tree := []; lk_nulls := [] |} I) as [A [B [C D]]]. unfold load_lookup, last_max.
  assert (B' : forall k, In k (map fst (lk_tree (fold_left add_stat (stats_from 0 batches) {| lk_tree := []; lk_nulls := [] |}))) <-> exists j b, nth_error batches j = Some b /\ page_max b <> None /\ k = page_min b).
  { intros k. rewrite B. cbn. split; [intros [[]|[s [J [N E]]]]; apply stats_In in J as [j [b [Eb ->]]]; exists j, b; auto|].
    intros [j [b [E [N ->]]]]. right. eexists. split; [apply stats_In; exists j, b; eauto|]. cbn. auto. }
  assert (C' : forall k p, rec_at (lk_tree (fold_left add_stat (stats_from 0 batches) {| lk_tree := []; lk_nulls := [] |})) k p <-> exists j b, nth_error batches j = Some b /\ page_max b <> None /\ k = page_min b /\ p = {| pr_max := page_max b; pr_page := N.of_nat j |}).
  { intros k p. rewrite C. split; [intros [[rs [[] _]]|[s [J [N [-> ->]]]]]; apply stats_In in J as [j [b [Eb ->]]]; exists j, b; auto|].
    intros [j [b [E [N [-> ->]]]]]. right. eexists. split; [apply stats_In; exists j, b; eauto|]. cbn. auto. }
  destruct (rev (stats_from 0 batches)) as [|s rest] eqn:R.
  - split; [exact A|]. split; [intros k; rewrite B'; split; [auto|intros [H|H]; [discriminate|exact H]]|]. split; [exact C'|exact D].
  - cbn [lk_tree lk_nulls]. split; [apply ventry_sorted; exact A|]. split; [|split; [|exact D]].
    + intros k. rewrite ventry_keys, B'. split; [intros [->|H]; auto|intros [H|H]; [injection H as ->; auto|auto]].
    + intros k p. rewrite ventry_id_rec. apply C'.
Qed.

(* ---- sorted pages ---- *)
Definition vsorted (l : list vrow) : Prop := StronglySorted (fun x y => vle (fst x) (fst y) = true) l.
Lemma ss_app : forall {A} (R : A -> A -> Prop) a b, StronglySorted R (a ++ b) -> StronglySorted R a /\ StronglySorted R b /\ (forall x y, In x a -> In y b -> R x y).
Proof.
  intros A R a. induction a as [|x a IH]; intros b H; [split; [constructor|split; [exact H|intros x y []]]|]. cbn in H. inversion H as [|? ? H1 H2]; subst. destruct (IH b H1) as [P [Q S]]. rewrite Forall_forall in H2.
  split; [constructor; [exact P|apply Forall_forall; intros y J; apply H2, in_or_app; auto]|]. split; [exact Q|]. intros y z [<-|J] K; [apply H2, in_or_app; auto|apply S; assumption].
Qed.
Lemma pages_ordered : forall batches i j a b x y, vsorted (concat batches) -> nth_error batches i = Some a -> nth_error batches j = Some b -> i < j -> In x a -> In y b -> vle (fst x) (fst y) = true.
Proof.
  induction batches as [|p t IH]; intros i j a b x y S Hi Hj L Ix Iy; [destruct i; discriminate|]. cbn in S. apply ss_app in S as [_ [S2 S3]]. destruct j as [|j]; [lia|]. cbn in Hj. destruct i as [|i]; cbn in Hi.
  - injection Hi as ->. apply S3; [exact Ix|]. apply in_concat. exists b. split; [apply (nth_error_In _ j); exact Hj|exact Iy].
  - apply (IH i j a b x y S2 Hi Hj); auto. lia.
Qed.
Lemma rev_last : forall {A} (l : list A) x r, rev l = x :: r -> nth_error l (length l - 1) = Some x.
Proof.
  intros A l x r H. apply (f_equal (@rev A)) in H. rewrite rev_involutive in H. cbn in H. subst l. rewrite app_length, nth_error_app2 by (cbn; lia). cbn.
  replace (length (rev r) + 1 - 1 - length (rev r)) with 0 by lia. reflexivity.
Qed.
Lemma page_of : forall batches j b y i, vsorted (concat batches) -> nth_error batches j = Some b -> In (Some y, i) b ->
  forall k, (last_max (stats_from 0 batches) = Some k \/ exists j' b', nth_error batches j' = Some b' /\ page_max b' <> None /\ k = page_min b') ->
  vlt k (Some y) = true -> vle k (page_min b) = true.
Proof.
  intros batches j b y i S Hb Iy k Hk Lk. destruct (vle k (page_min b)) eqn:E; [reflexivity|]. exfalso.
  pose proof (page_min_spec b) as MB. destruct (page_min b) as [mb|] eqn:EM; [|exact (MB y i Iy)]. destruct MB as [[im Im] LM].
  assert (K : vle (Some y) k = true); [|apply vlt_iff in Lk; congruence].
  destruct Hk as [Hk|[j' [b' [Hb' [Nb' ->]]]]].
  - unfold last_max in Hk. destruct (rev (stats_from 0 batches)) as [|s r] eqn:R; [discriminate|]. injection Hk as <-. apply rev_last in R. set (n := length (stats_from 0 batches) - 1) in *.
    assert (HL : length (stats_from 0 batches) = length batches) by (clear; generalize 0%N as z; induction batches; intros; cbn; auto).
    rewrite stats_nth in R. destruct (nth_error batches n) as [bl|] eqn:EL; [|discriminate]. injection R as <-. cbn [st_max] in *.
    pose proof (page_max_spec bl) as MX. destruct (page_max bl) as [mx|] eqn:EX; [|discriminate E]. destruct MX as [[ix Ix] LX].
    destruct (Nat.eq_dec j n) as [->|NE].
    + assert (b = bl) by congruence. subst bl. cbn. apply Z.leb_le. eapply LX; eauto.
    + assert (j < n). { assert (j < length batches) by (apply nth_error_Some; congruence). unfold n in *. rewrite HL in *. lia. }
      exact (pages_ordered batches j n b bl (Some y, i) (Some mx, ix) S Hb EL H Iy Ix).
  - pose proof (page_min_spec b') as MB'. destruct (page_min b') as [mb'|] eqn:EM'; [|discriminate E]. destruct MB' as [[im' Im'] LM'].
    destruct (lt_eq_lt_dec j j') as [[L|EJ]|L]; [|subst j'|].
    + exact (pages_ordered batches j j' b b' (Some y, i) (Some mb', im') S Hb Hb' L Iy Im').
    + assert (b = b') by congruence. subst b'. rewrite EM in EM'. injection EM' as ->. cbn [vle] in E. rewrite Z.leb_refl in E. discriminate.
    + exfalso. pose proof (pages_ordered batches j' j b' b (Some mb', im') (Some mb, im) S Hb' Hb L Im' Im) as X. cbn [fst] in X. congruence.
Qed.

(* ---- pages visited ---- *)
Lemma in_flat_rec : forall (m : vmap (list prec)) f r, In r (flat_map snd (filter f m)) <-> exists k rs, In (k, rs) m /\ f (k, rs) = true /\ In r rs.
Proof.
  intros. rewrite in_flat_map. split; [intros [[k rs] [J K]]; apply filter_In in J as [J F]; eauto|intros [k [rs [J [F K]]]]; exists (k, rs); split; [apply filter_In; auto|exact K]].
Qed.
Lemma pages_between_ok : forall batches lo hi, let l := load_lookup (stats_from 0 batches) in
  query_ok (QRange lo hi) \/ (exists v, v <> None /\ lo = VInc v /\ hi = VExc v) ->
  exists ps, pages_between l lo hi = Some ps /\ (forall n, In n ps -> exists j, n = N.of_nat j /\ j < length batches) /\
    (vsorted (concat batches) -> forall j b y i, nth_error batches j = Some b -> In (Some y, i) b ->
       (match bounds_value lo with Some w => vle w (Some y) = true | None => True end) -> (match bounds_value hi with Some w => vle (Some y) w = true | None => True end) -> In (N.of_nat j) ps).
Proof.
  intros batches lo hi l OK. destruct (load_spec batches) as [S [K [R _]]]. fold l in S, K, R. unfold pages_between.
  assert (NP : range_panics (lower_of l lo) (upper_of hi) = false).
  { assert (X : forall w u, bounds_value lo = Some w -> bounds_value hi = Some u -> forall k, vlt k w = true -> vlt u k = false).
    { intros w u Ew Eu k Lk. apply vlt_false. destruct OK as [[_ [O1 O2]]|[v [Nv [-> ->]]]].
      - destruct w as [w|]; [|destruct k; discriminate Lk]. destruct u as [u|]; [|exfalso; eapply O2; eauto]. specialize (O1 w u Ew Eu). apply vlt_le in Lk. apply (vle_trans _ (Some w)); [exact Lk|]. cbn. apply Z.leb_le. exact O1.
      - injection Ew as ->. injection Eu as ->. apply vlt_le. exact Lk. }
    unfold lower_of. pose proof (fun key => largest_spec (lk_tree l) key S) as LS.
    destruct lo as [|w|w]; [reflexivity| |]; specialize (LS w); destruct (largest_node_less w (lk_tree l)) as [k|]; try reflexivity; destruct LS as [_ [Lk _]]; destruct hi as [|u|u]; try reflexivity; cbn; apply (X w u); auto. }
  unfold vrange. rewrite NP. eexists. split; [reflexivity|]. split.
  - intros n J. apply in_map_iff in J as [r [<- J]].
    assert (J' : In r (flat_map snd (filter (fun p => above (lower_of l lo) (fst p) && below (upper_of hi) (fst p)) (lk_tree l)))) by (destruct (lower_of l lo); [exact J|apply filter_In in J as [J _]; exact J|apply filter_In in J as [J _]; exact J]).
    apply in_flat_rec in J' as [k [rs [A [_ B]]]]. destruct (proj1 (R k r)) as [j [b [E [_ [_ ->]]]]]; [exists rs; auto|]. exists j. split; [reflexivity|]. apply nth_error_Some. congruence.
  - intros SC j b y i Hb Iy Hlo Hhi.
    pose proof (page_min_spec b) as MN. destruct (page_min b) as [mn|] eqn:EN; [|exfalso; exact (MN y i Iy)]. destruct MN as [_ MN].
    pose proof (page_max_spec b) as MX. destruct (page_max b) as [mx|] eqn:EX; [|exfalso; exact (MX y i Iy)]. destruct MX as [_ MX].
    assert (RA : rec_at (lk_tree l) (Some mn) {| pr_max := Some mx; pr_page := N.of_nat j |}) by (apply R; exists j, b; rewrite EN, EX; repeat split; auto; discriminate).
    destruct RA as [rs [A B]].
    assert (UP : below (upper_of hi) (Some mn) = true).
    { specialize (MN y i Iy). destruct hi as [|u|u]; [reflexivity| |]; cbn [bounds_value] in Hhi; cbn [upper_of below]; (apply (vle_trans _ (Some y)); [cbn; apply Z.leb_le; exact MN|exact Hhi]). }
    assert (LOW : above (lower_of l lo) (Some mn) = true /\ match lower_of l lo with VUnb => True | VInc k => vle k (Some mx) = true | VExc k => False end).
    { assert (X : forall w k, bounds_value lo = Some w -> largest_node_less w (lk_tree l) = Some k -> vle k (Some mn) = true /\ vle k (Some mx) = true).
      { intros w k Ew El. rewrite Ew in Hlo. pose proof (largest_spec (lk_tree l) w S) as LS. rewrite El in LS. destruct LS as [Ik [Lk _]].
        assert (Ly : vlt k (Some y) = true) by (apply (vlt_le_trans k w); assumption). split.
        - rewrite <- EN. apply (page_of batches j b y i SC Hb Iy k); [apply K; exact Ik|exact Ly].
        - apply (vle_trans k (Some y)); [apply vlt_le; exact Ly|]. cbn. apply Z.leb_le. eapply MX. exact Iy. }
      destruct lo as [|w|w]; cbn [lower_of]; [auto| |]; destruct (largest_node_less w (lk_tree l)) as [k|] eqn:El; auto; destruct (X w k eq_refl El); auto. }
    apply in_map_iff. exists {| pr_max := Some mx; pr_page := N.of_nat j |}. split; [reflexivity|].
    assert (M : In {| pr_max := Some mx; pr_page := N.of_nat j |} (flat_map snd (filter (fun p => above (lower_of l lo) (fst p) && below (upper_of hi) (fst p)) (lk_tree l)))).
    { apply in_flat_rec. exists (Some mn), rs. split; [exact A|]. split; [|exact B]. cbn [fst]. destruct LOW as [-> _]. rewrite UP. reflexivity. }
    destruct LOW as [_ LOW]. destruct (lower_of l lo) as [|k|k]; [exact M| |contradiction]. apply filter_In. split; [exact M|]. cbn [pr_max]. apply negb_true_iff. apply vlt_false. exact LOW.
Qed.
Lemma null_pages_ok : forall batches n, In n (lk_nulls (load_lookup (stats_from 0 batches))) <-> exists j b i, n = N.of_nat j /\ nth_error batches j = Some b /\ In (None, i) b.
Proof.
  intros batches n. destruct (load_spec batches) as [_ [_ [_ E]]]. rewrite E, in_map_iff. split.
  - intros [s [<- J]]. apply filter_In in J as [J P]. apply stats_In in J as [j [b [Eb ->]]]. cbn [st_nulls st_page] in *. apply Nat.ltb_lt in P. apply null_count_pos in P as [i P]. exists j, b, i. auto.
  - intros [j [b [i [-> [Eb J]]]]]. eexists. split; [|apply filter_In; split; [apply stats_In; exists j, b; split; [exact Eb|reflexivity]|]]; [reflexivity|]. cbn [st_nulls]. apply Nat.ltb_lt. apply null_count_pos. eauto.
Qed.
Lemma pages_eq_ok : forall batches v, let l := load_lookup (stats_from 0 batches) in
  exists ps, pages_eq l v = Some ps /\ (forall n, In n ps -> exists j, n = N.of_nat j /\ j < length batches) /\
    (vsorted (concat batches) -> forall j b i, nth_error batches j = Some b -> In (v, i) b -> In (N.of_nat j) ps).
Proof.
  intros batches v l. unfold pages_eq. destruct v as [v|]; cbn [is_none].
  - destruct (pages_between_ok batches (VInc (Some v)) (VExc (Some v))) as [ps [E [P Q]]]; [right; exists (Some v); repeat split; discriminate|]. exists ps. split; [exact E|]. split; [exact P|].
    intros S j b i Hb J. apply (Q S j b v i Hb J); cbn; apply Z.leb_refl.
  - eexists. split; [reflexivity|]. split.
    + intros n J. apply null_pages_ok in J as [j [b [i [-> [Eb _]]]]]. exists j. split; [reflexivity|]. apply nth_error_Some. congruence.
    + intros _ j b i Hb J. apply null_pages_ok. exists j, b, i. auto.
Qed.
Lemma bt_pages_ok : forall fmt bs batches q, query_ok q ->
  exists ps, bt_pages (train fmt bs batches) q = Some ps /\ (forall n, In n ps -> exists j, n = N.of_nat j /\ j < length batches) /\
    (vsorted (concat batches) -> forall j b v i, nth_error batches j = Some b -> In (v, i) b -> matches q v -> In (N.of_nat j) ps).
Proof.
  intros fmt bs batches q OK. unfold bt_pages. cbn [train bt_lookup]. destruct q as [v|lo hi|vs|].
  - destruct (pages_eq_ok batches v) as [ps [E [P Q]]]. exists ps. split; [exact E|]. split; [exact P|]. intros S j b w i Hb J M. cbn in M. subst w. eapply Q; eauto.
  - destruct (pages_between_ok batches lo hi (or_introl OK)) as [ps [E [P Q]]]. exists ps. split; [exact E|]. split; [exact P|]. intros S j b w i Hb J [x [-> [M1 M2]]]. apply (Q S j b x i Hb J).
    + destruct lo as [|[a|]|[a|]]; cbn in *; auto; try contradiction; apply Z.leb_le; lia.
    + destruct hi as [|[a|]|[a|]]; cbn in *; auto; try contradiction; apply Z.leb_le; lia.
  - unfold pages_in. assert (X : exists g, forall v, pages_eq (load_lookup (stats_from 0 batches)) v = Some (g v)).
    { exists (fun v => match pages_eq (load_lookup (stats_from 0 batches)) v with Some p => p | None => [] end). intros v. destruct (pages_eq_ok batches v) as [ps [E _]]. cbv zeta in E. rewrite E. reflexivity. }
    destruct X as [g G]. rewrite (sequence_some _ g) by (intros; apply G). eexists. split; [reflexivity|]. split.
    + intros n J. rewrite s_of_list_In in J. apply in_concat in J as [p [J1 J2]]. apply in_map_iff in J1 as [v [<- J1]]. destruct (pages_eq_ok batches v) as [ps [E [P _]]]. cbv zeta in E. rewrite G in E. injection E as <-. apply P. exact J2.
    + intros S j b v i Hb J M. cbn in M. rewrite s_of_list_In. apply in_concat. exists (g v). split; [apply in_map; exact M|]. destruct (pages_eq_ok batches v) as [ps [E [_ Q]]]. cbv zeta in E. rewrite G in E. injection E as <-. eapply Q; eauto.
  - destruct (pages_eq_ok batches None) as [ps [E [P Q]]]. unfold pages_eq in E. cbn in E. exists ps. split; [exact E|]. split; [exact P|]. intros S j b w i Hb J M. cbn in M. subst w. eapply Q; eauto.
Qed.

(* ---- reading pages ---- *)
(* a v2 file is read by row position: all pages but the last must be full *)
Fixpoint full_pages (bs : nat) (batches : list (list vrow)) : Prop :=
  match batches with
  | [] => True
  | [b] => length b <= bs
  | b :: t => length b = bs /\ full_pages bs t
  end.
Lemma firstn_exact : forall {A} (a b : list A) n, length a = n -> firstn n (a ++ b) = a.
Proof. intros A a b n <-. rewrite firstn_app, Nat.sub_diag, firstn_all, app_nil_r. reflexivity. Qed.
Lemma skipn_exact : forall {A} (a b : list A) n m, length a = n -> skipn (n + m) (a ++ b) = skipn m b.
Proof. intros A a b n m <-. rewrite skipn_app. rewrite skipn_all2 by lia. cbn. f_equal. lia. Qed.
Lemma read_page_ok : forall fmt bs batches j b, (fmt = V2 -> full_pages bs batches) -> nth_error batches j = Some b -> read_page fmt bs batches (N.of_nat j) = Some b.
Proof.
  intros fmt bs batches j b F E. destruct fmt; cbn [read_page]; rewrite Nnat.Nat2N.id; [exact E|]. f_equal. specialize (F eq_refl). revert j E. induction batches as [|p t IH]; intros j E; [destruct j; discriminate|].
  destruct j as [|j].
  - injection E as ->. cbn [Nat.mul skipn concat]. destruct t as [|q t]; [cbn in F; rewrite app_nil_r; apply firstn_all2; exact F|]. destruct F as [F _]. apply firstn_exact. exact F.
  - cbn [nth_error] in E. destruct t as [|q t]; [destruct j; discriminate|]. destruct F as [F1 F2]. cbn [Nat.mul concat]. rewrite skipn_exact by exact F1. apply IH; assumption.
Qed.
(* the lookup of [batches] over a file whose j-th page holds rows [own_j] with values of
   the j-th batch, under any row ids, and maybe rows that other pages own *)
Lemma bt_search_gen : forall t batches pages own q,
  bt_lookup t = load_lookup (stats_from 0 batches) -> length pages = length batches ->
  (forall j p, nth_error pages j = Some p -> read_page (bt_fmt t) (bt_batch t) (bt_file t) (N.of_nat j) = Some p) ->
  (forall r, In r (concat pages) -> In r (concat own)) ->
  (forall j p v i, nth_error own j = Some p -> In (v, i) p -> exists b i' p', nth_error batches j = Some b /\ In (v, i') b /\ nth_error pages j = Some p' /\ In (v, i) p') ->
  vsorted (concat batches) -> ids_ok (concat pages) -> query_ok q ->
  exists s, bt_search t q = Some s /\ answers s (concat own) q.
Proof.
  intros t batches pages own q HL HN HR HO HV S IDS OK. unfold bt_search. destruct (bt_pages_ok (bt_fmt t) (bt_batch t) batches q OK) as [ps [E [P Q]]].
  assert (E' : bt_pages t q = Some ps) by (unfold bt_pages in *; rewrite HL; exact E). rewrite E'. cbn [obind].
  assert (RD : forall n, In n ps -> exists j b s, n = N.of_nat j /\ nth_error pages j = Some b /\ obind (read_page (bt_fmt t) (bt_batch t) (bt_file t) n) (flat_search q) = Some s /\ t_wf s /\ answers s b q).
  { intros n J. destruct (P n J) as [j [-> Lj]]. rewrite <- HN in Lj. apply nth_error_Some in Lj. destruct (nth_error pages j) as [b|] eqn:Eb; [|congruence].
    destruct (flat_search_spec q b OK) as [s [Es [W A]]]. { apply Forall_forall. intros r Ir. unfold ids_ok in IDS. rewrite Forall_forall in IDS. apply IDS. apply in_concat. exists b. split; [apply (nth_error_In _ j); exact Eb|exact Ir]. }
    exists j, b, s. split; [reflexivity|]. split; [exact Eb|]. rewrite (HR j b Eb). cbn. auto. }
  assert (X : exists g, forall n, In n ps -> obind (read_page (bt_fmt t) (bt_batch t) (bt_file t) n) (flat_search q) = Some (g n)).
  { exists (fun n => match obind (read_page (bt_fmt t) (bt_batch t) (bt_file t) n) (flat_search q) with Some s => s | None => [] end). intros n J. destruct (RD n J) as [j [b [s [_ [_ [-> _]]]]]]. reflexivity. }
  destruct X as [g G]. rewrite (sequence_some _ g) by exact G. cbn [obind]. eexists. split; [reflexivity|]. intros id Hid.
  rewrite extend_maps_spec; [|apply Forall_forall; intros m J; apply in_map_iff in J as [n [<- J]]; destruct (RD n J) as [j [b [s [_ [_ [Es [[W _] _]]]]]]]; rewrite (G n J) in Es; injection Es as ->; exact W].
  cbn [t_contains get]. rewrite orb_true_iff, existsb_exists. split.
  - intros [[m [J C]]|C]; [|discriminate]. apply in_map_iff in J as [n [<- J]]. destruct (RD n J) as [j [b [s [_ [Eb [Es [_ A]]]]]]]. rewrite (G n J) in Es. injection Es as <-. apply A in C as [v [Iv M]]; [|exact Hid].
    exists v. split; [|exact M]. apply HO. apply in_concat. exists b. split; [apply (nth_error_In _ j); exact Eb|exact Iv].
  - intros [v [Iv M]]. left. apply in_concat in Iv as [b1 [Ib Iv]]. apply In_nth_error in Ib as [j Eb1]. destruct (HV j b1 v id Eb1 Iv) as [b0 [i' [b [Eb0 [Iv0 [Eb Ivb]]]]]]. pose proof (Q S j b0 v i' Eb0 Iv0 M) as J. exists (g (N.of_nat j)). split; [apply in_map; exact J|].
    destruct (RD _ J) as [j' [b' [s [Ej [Eb' [Es [_ A]]]]]]]. apply Nnat.Nat2N.inj in Ej. subst j'. assert (b' = b) by congruence. subst b'. rewrite (G _ J) in Es. injection Es as <-. apply A; [exact Hid|]. exists v. auto.
Qed.
Theorem bt_search_spec : forall fmt bs batches q, vsorted (concat batches) -> (fmt = V2 -> full_pages bs batches) -> ids_ok (concat batches) -> query_ok q ->
  exists s, bt_search (train fmt bs batches) q = Some s /\ answers s (concat batches) q.
Proof.
  intros fmt bs batches q S F IDS OK. apply (bt_search_gen (train fmt bs batches) batches batches batches q); auto.
  - intros j p E. apply read_page_ok; assumption.
  - intros j p v i E J. exists p, i, p. auto.
Qed.
(* every page holding a matching value is visited *)
Theorem bt_pages_complete : forall fmt bs batches q, vsorted (concat batches) -> query_ok q ->
  exists ps, bt_pages (train fmt bs batches) q = Some ps /\
    forall j b v i, nth_error batches j = Some b -> In (v, i) b -> matches q v -> In (N.of_nat j) ps.
Proof. intros fmt bs batches q S OK. destruct (bt_pages_ok fmt bs batches q OK) as [ps [E [_ Q]]]. exists ps. split; [exact E|apply Q; exact S]. Qed.
(* crossed bounds: the search panics exactly when some page minimum, or the maximum of
   the last page, lies strictly between the upper and the lower bound *)
Theorem crossed_panics : forall fmt bs batches lo hi a b, bounds_value lo = Some a -> bounds_value hi = Some b ->
  (bt_pages (train fmt bs batches) (QRange lo hi) = None <->
   exists k, ((exists p, In p batches /\ page_max p <> None /\ k = page_min p) \/ last_max (stats_from 0 batches) = Some k) /\ vlt b k = true /\ vlt k a = true).
Proof.
  intros fmt bs batches lo hi a b Ea Eb. cbn [bt_pages train bt_lookup]. destruct (load_spec batches) as [S [K _]]. set (l := load_lookup (stats_from 0 batches)) in *.
  pose proof (largest_spec (lk_tree l) a S) as LS.
  assert (EL : lower_of l lo = match largest_node_less a (lk_tree l) with Some k => VInc k | None => VUnb end) by (destruct lo; cbn in Ea; [discriminate| |]; injection Ea as ->; reflexivity).
  assert (EU : upper_of hi = VInc b) by (destruct hi; cbn in Eb; [discriminate| |]; injection Eb as ->; reflexivity).
  unfold pages_between, vrange. rewrite EL, EU.
  assert (KK : forall k, In k (map fst (lk_tree l)) <-> ((exists p, In p batches /\ page_max p <> None /\ k = page_min p) \/ last_max (stats_from 0 batches) = Some k)).
  { intros k. rewrite K. split; (intros [H|H]; [auto|]).
    - destruct H as [j [p [E [N ->]]]]. left. exists p. split; [apply (nth_error_In _ j); exact E|auto].
    - destruct H as [p [I [N ->]]]. apply In_nth_error in I as [j E]. right. exists j, p. auto.
    - auto. }
  destruct (largest_node_less a (lk_tree l)) as [k|] eqn:EK; cbn [range_panics].
  - destruct LS as [Ik [Lk Mk]]. destruct (vlt b k) eqn:L; split; auto; try discriminate.
    + intros _. exists k. split; [apply KK; exact Ik|auto].
    + intros [k' [Ik' [B A]]]. apply KK in Ik'. specialize (Mk k' Ik' A). rewrite (vlt_le_trans b k' k B Mk) in L. discriminate.
  - split; [discriminate|]. intros [k' [Ik' [B A]]]. apply KK in Ik'. rewrite (LS k' Ik') in A. discriminate.
Qed.
(* `x BETWEEN 10 AND 5` over pages [1..4], [6..9] panics *)
Theorem crossed_refuted : exists fmt bs batches q, vsorted (concat batches) /\ full_pages bs batches /\ ids_ok (concat batches) /\ bt_search (train fmt bs batches) q = None.
Proof.
  exists V2, 2, [[(Some 1%Z, 0%N); (Some 4%Z, 1%N)]; [(Some 6%Z, 2%N); (Some 9%Z, 3%N)]], (QRange (VInc (Some 10%Z)) (VInc (Some 5%Z))).
  split; [unfold vsorted; cbn; repeat (constructor; [|repeat constructor]); constructor|]. split; [cbn; auto|]. split; [repeat constructor|reflexivity].
Qed.
Example search_example :
  let batches := [[(None, 7%N); (Some 3%Z, 1%N)]; [(Some 3%Z, 5%N); (Some 8%Z, 2%N)]; [(Some 9%Z, 0%N)]] in
  vsorted (concat batches) /\ full_pages 2 batches /\ ids_ok (concat batches) /\
  query_ok (QRange (VInc (Some 3%Z)) (VExc (Some 9%Z))) /\
  bt_pages (train V2 2 batches) (QRange (VInc (Some 3%Z)) (VExc (Some 9%Z))) = Some [0; 1; 2]%N /\
  omap t_row_ids (bt_search (train V2 2 batches) (QRange (VInc (Some 3%Z)) (VExc (Some 9%Z)))) = Some (Some [1; 2; 5]%N) /\
  omap t_row_ids (bt_search (train V2 2 batches) (QIn [None; Some 8%Z])) = Some (Some [2; 7]%N).
Proof.
  cbv zeta. split; [unfold vsorted; cbn; repeat (constructor; [|repeat constructor]); constructor|]. split; [cbn; auto|]. split; [repeat constructor|].
  split; [|repeat split; vm_compute; reflexivity]. cbn. split; [left; discriminate|]. split; [intros a b E1 E2; injection E1 as <-; injection E2 as <-; lia|intros a E1; discriminate].
Qed.
