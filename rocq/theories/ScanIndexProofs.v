(* C18 continued: trained indices meet the search contract of [leaf_ok], and the whole
   path from training to scanning. *)
From Coq Require Import List Arith NArith ZArith Bool Lia Permutation.
From Verif Require Import Lib AMap RowIdsModel RowIdsSpec SerdeModel TreeMapModel TreeMapProofs TreeMapProofs2 MaskProofs SeqSetProofs
  DeletionModel TakeModel ScalarModel ScalarProofs BitmapIndexProofs IndexExprModel IndexExprProofs ScanModel ScanProofs.
Import ListNotations.

(* ---- search results are well-formed sets without whole fragments ---- *)
Lemma nil_good : opt_good (Some []).
Proof. split; [split; [exact Logic.I|constructor]|intros f H; discriminate]. Qed.
Lemma from_iter_good : forall l, opt_good (Some (t_from_iter l)).
Proof. intros l. split; [apply extend_wf; exact (proj1 nil_good)|apply extend_part; exact (proj2 nil_good)]. Qed.
Lemma ext_entry_good : forall m p, opt_good (Some m) -> (fst p < two32)%N -> (exists s, snd p = Partial s /\ sel_wf (Partial s)) -> opt_good (Some (ext_entry m p)).
Proof.
  intros m [k v] [W P] K [s [E S]]. cbn [fst snd] in *. subst v. unfold ext_entry. cbn [fst snd].
  destruct (get k m) as [[|r]|] eqn:G.
  - split; assumption.
  - split; [apply put_t_wf; auto|apply put_part; exact P]. destruct (get_sel_wf _ _ _ W G) as [[A B] _]. destruct S as [A' B'].
    split; [apply s_union_sinc; exact A'|apply s_union_forall; assumption].
  - split; [apply put_t_wf; auto|apply put_part; exact P].
Qed.
Lemma ext_fold_good : forall o m, opt_good (Some m) -> opt_good (Some o) -> opt_good (Some (fold_left ext_entry o m)).
Proof.
  intros o m G [Wo Po]. assert (A : Forall (fun p => (fst p < two32)%N /\ exists s, snd p = Partial s /\ sel_wf (Partial s)) o).
  { apply Forall_forall. intros [k v] J. destruct Wo as [W1 W2]. rewrite Forall_forall in W2. destruct (W2 _ J) as [K S]. split; [exact K|]. destruct v as [|s]; [|exists s; auto].
    exfalso. apply (Po k). apply In_get; assumption. }
  clear Wo Po. revert m G. induction A as [|p o [K S] A IH]; intros m G; cbn; [exact G|]. apply IH. apply ext_entry_good; assumption.
Qed.
Lemma extend_maps_good : forall ms m, opt_good (Some m) -> Forall (fun x => opt_good (Some x)) ms -> opt_good (Some (t_extend_maps ms m)).
Proof.
  unfold t_extend_maps. induction ms as [|o ms IH]; intros m G F; cbn; [exact G|]. inversion F; subst. apply IH; [apply ext_fold_good; assumption|assumption].
Qed.
Lemma flat_search_good : forall q p m, flat_search q p = Some m -> opt_good (Some m).
Proof.
  intros q p m H. unfold flat_search in H. destruct (sequence_opt _) as [ps|]; [|destruct q as [v|[| |] [| |]|vs|]; discriminate].
  destruct q as [v|[| |] [| |]|vs|]; try discriminate; injection H as <-; apply from_iter_good.
Qed.
Lemma sequence_Forall : forall {A B} (P : B -> Prop) (f : A -> option B) l r, (forall a b, f a = Some b -> P b) -> sequence_opt (map f l) = Some r -> Forall P r.
Proof.
  intros A B P f. induction l as [|a l IH]; intros r H E; cbn in E; [injection E as <-; constructor|]. destruct (f a) as [b|] eqn:Ea; [|discriminate].
  destruct (sequence_opt (map f l)) as [r'|] eqn:El; [|discriminate]. injection E as <-. constructor; [eauto|apply IH; auto].
Qed.
Lemma bt_search_good : forall t q s, bt_search t q = Some s -> opt_good (Some s).
Proof.
  intros t q s H. unfold bt_search in H. destruct (bt_pages t q) as [ps|]; [|discriminate]. cbn [obind] in H.
  destruct (sequence_opt (map (fun n => obind (read_page (bt_fmt t) (bt_batch t) (bt_file t) n) (flat_search q)) ps)) as [ms|] eqn:E; [|discriminate].
  cbn [obind] in H. injection H as <-. apply extend_maps_good; [exact nil_good|]. eapply sequence_Forall; [|exact E]. intros n b X. cbv beta in X.
  destruct (read_page _ _ _ n) as [p|]; [|discriminate]. eapply flat_search_good. exact X.
Qed.
Lemma group_of_Some : forall k l, group_of k l <> [] -> exists s, In (k, s) l.
Proof.
  intros k l H. unfold group_of in H. destruct (filter (fun p => (fst p =? k)%N) l) as [|[k' s] r] eqn:E; [exfalso; apply H; reflexivity|]. exists s.
  assert (J : In (k', s) (filter (fun p => (fst p =? k)%N) l)) by (rewrite E; left; reflexivity). apply filter_In in J as [J K]. apply N.eqb_eq in K. cbn in K. subst k'. exact J.
Qed.
Lemma push_wf : forall l (g : amap (list sel)), am_wf g -> am_wf (fold_left push_entry l g).
Proof. induction l as [|p l IH]; intros g W; cbn; [exact W|]. apply IH. apply put_wf. exact W. Qed.
Lemma keys_map_union : forall (g : amap (list sel)), keys (map (fun p => (fst p, sel_union_all (snd p))) g) = keys g.
Proof. intros g. unfold keys. rewrite map_map. reflexivity. Qed.
Lemma union_fold_wf : forall (l : list sel), Forall sel_wf l -> sel_wf (Partial (fold_right (fun s acc => match s with Partial b => s_union b acc | Full => acc end) [] l)).
Proof.
  induction l as [|s l IH]; intros F; cbn [fold_right]; [split; [exact Logic.I|constructor]|]. inversion F as [|? ? A B]; subst. specialize (IH B). destruct s as [|b]; [exact IH|].
  destruct IH as [I1 I2], A as [A1 A2]. split; [apply s_union_sinc; exact I1|apply s_union_forall; assumption].
Qed.
Lemma union_all_good : forall ms, Forall (fun m => opt_good (Some m)) ms -> opt_good (Some (t_union_all ms)).
Proof.
  intros ms F. unfold t_union_all.
  assert (EN : forall k s, In (k, s) (concat ms) -> (k < two32)%N /\ sel_wf s /\ s <> Full).
  { intros k s J. apply in_concat in J as [m [Jm J]]. rewrite Forall_forall in F. destruct (F m Jm) as [W P]. assert (W' := W). destruct W' as [W1 W2]. rewrite Forall_forall in W2. destruct (W2 _ J) as [K S].
    split; [exact K|]. split; [exact S|]. intros ->. apply (P k). apply In_get; assumption. }
  set (g := fold_left push_entry (concat ms) []). assert (Wg : am_wf g) by (apply push_wf; exact Logic.I).
  assert (G : forall k l, In (k, l) g -> l = group_of k (concat ms) /\ l <> []).
  { intros k l J. apply In_get in J; [|exact Wg]. unfold g in J. rewrite push_get in J. cbn [get] in J. destruct (group_of k (concat ms)) as [|x r] eqn:E; [discriminate|]. injection J as <-. split; [reflexivity|discriminate]. }
  assert (EL : forall k l, In (k, l) g -> (k < two32)%N /\ Forall (fun s => sel_wf s /\ s <> Full) l).
  { intros k l J. destruct (G k l J) as [-> N1]. destruct (group_of_Some _ _ N1) as [s0 J0]. split; [exact (proj1 (EN _ _ J0))|]. apply Forall_forall. intros s S. unfold group_of in S. apply in_map_iff in S as [[k' s'] [E S]]. cbn in E. subst s'.
    apply filter_In in S as [S K]. destruct (EN _ _ S) as [_ X]. exact X. }
  assert (SU : forall k l, In (k, l) g -> exists s, sel_union_all l = Partial s /\ sel_wf (Partial s)).
  { intros k l J. destruct (EL k l J) as [_ FL]. unfold sel_union_all. destruct (existsb _ l) eqn:E.
    - apply existsb_exists in E as [s [S E]]. rewrite Forall_forall in FL. destruct (FL s S) as [_ NF]. destruct s; [congruence|discriminate].
    - eexists. split; [reflexivity|]. apply union_fold_wf. eapply Forall_impl; [|exact FL]. cbn. tauto. }
  split; [split|].
  - unfold am_wf. rewrite keys_map_union. exact Wg.
  - apply Forall_forall. intros p J. apply in_map_iff in J as [[k l] [<- J]]. cbn [fst snd]. split; [exact (proj1 (EL k l J))|]. destruct (SU k l J) as [s [-> S]]. exact S.
  - intros f E. apply get_In in E. apply in_map_iff in E as [[k l] [E J]]. cbn [fst snd] in E. destruct (SU k l J) as [s [Es _]]. rewrite Es in E. discriminate.
Qed.
Lemma bi_search_good : forall t rows q s, indexes t rows -> bi_search t q = Some s -> opt_good (Some s).
Proof.
  intros t rows q s H E. pose proof H as [_ [A [WN [PN _]]]]. assert (AT : forall v, opt_good (Some (if is_none v then bi_null t else match vget v (bi_map t) with Some m => m | None => [] end))).
  { intros v. destruct (index_at t rows v H) as [W [P _]]. unfold at_key in *. split; assumption. }
  destruct q as [v|lo hi|vs|]; cbn [bi_search] in E.
  - injection E as <-. apply AT.
  - unfold vrange in E. destruct (range_panics lo hi); [discriminate|]. injection E as <-. apply union_all_good. apply Forall_forall. intros m J. apply in_map_iff in J as [[k m'] [<- J]]. apply filter_In in J as [J _].
    destruct (A k m' J) as [_ X]. exact X.
  - injection E as <-. assert (G : forall acc, opt_good (Some acc) -> opt_good (Some (fold_left (fun acc v => if is_none v then t_or acc (bi_null t) else match vget v (bi_map t) with Some m => t_or acc m | None => acc end) vs acc))).
    { induction vs as [|v vs IH]; intros acc Ga; cbn [fold_left]; [exact Ga|]. apply IH. specialize (AT v). destruct (is_none v); [apply or_good; assumption|]. destruct (vget v (bi_map t)); [apply or_good; assumption|exact Ga]. }
    apply G. exact nil_good.
  - injection E as <-. split; assumption.
Qed.
Lemma ll_search_good : forall rows q s, ids_ok (unnest rows) -> ll_search (ll_train rows) q = Some s -> opt_good (Some s).
Proof.
  intros rows q s IDS E. pose proof (train_indexes _ IDS) as H. unfold ll_train in E.
  set (sr := fun v => match bi_search (bi_train (unnest rows)) (QEq v) with Some m => m | None => [] end) in *.
  assert (SR : forall v, opt_good (Some (sr v))). { intros v. unfold sr. destruct (bi_search (bi_train (unnest rows)) (QEq v)) as [m|] eqn:X; [eapply bi_search_good; eauto|exact nil_good]. }
  assert (GF : forall (op : tmap -> tmap -> tmap) vs acc, (forall a b, opt_good (Some a) -> opt_good (Some b) -> opt_good (Some (op a b))) -> opt_good (Some acc) -> opt_good (Some (fold_left (fun acc w => op acc (sr w)) vs acc))).
  { intros op. induction vs as [|v vs IH]; intros acc HO Ga; cbn [fold_left]; [exact Ga|]. apply IH; auto. }
  destruct q as [[|v vs]|[|v vs]]; cbn [ll_search] in E; try discriminate; injection E as <-; apply GF; try apply SR; [apply and_good|apply or_good].
Qed.

(* ---- trained indices ---- *)
Inductive cindex :=
| IxBtree (fmt : format) (batch : nat) (batches : list (list vrow))
| IxBitmap (rows : list vrow)
| IxLabels (rows : list lrow).
(* the rows an index of column c was trained on *)
Definition trained_on (rows : list (N * row)) (c : N) (ix : cindex) : Prop :=
  match ix with
  | IxBtree fmt bs batches => vsorted (concat batches) /\ (fmt = V2 -> full_pages bs batches) /\
      Permutation (concat batches) (map (fun p => (r_col (snd p) c, fst p)) rows)
  | IxBitmap l => Permutation l (map (fun p => (r_col (snd p) c, fst p)) rows)
  | IxLabels l => Permutation l (map (fun p => (r_list (snd p) c, fst p)) rows)
  end.
Definition index_search (ixs : N -> option cindex) (c : N) (q : aquery) : option tmap :=
  match ixs c, q with
  | Some (IxBtree fmt bs batches), ASarg q => bt_search (train fmt bs batches) q
  | Some (IxBitmap rows), ASarg q => bi_search (bi_train rows) q
  | Some (IxLabels rows), ALabel q => ll_search (ll_train rows) q
  | _, _ => None
  end.
Definition aquery_ok (ixs : N -> option cindex) (c : N) (q : aquery) : Prop :=
  match ixs c, q with
  | Some (IxBtree _ _ _), ASarg q => query_ok q
  | Some (IxBitmap _), ASarg q => bitmap_query_ok q
  | Some (IxLabels _), ALabel q => labels q <> []
  | _, _ => False
  end.
Fixpoint queries_ok (ixs : N -> option cindex) (s : sidx) : Prop :=
  match s with
  | SNot a => queries_ok ixs a
  | SAnd a b | SOr a b => queries_ok ixs a /\ queries_ok ixs b
  | SQuery c q => aquery_ok ixs c q
  end.

Lemma trained_leaf : forall ixs rows c q, NoDup (map fst rows) -> Forall (fun p : N * row => (fst p < two64)%N) rows ->
  (forall ix, ixs c = Some ix -> trained_on rows c ix) -> aquery_ok ixs c q ->
  exists t, index_search ixs c q = Some t /\ opt_good (Some t) /\
    forall id, (id < two64)%N -> (t_contains id t = true <-> exists r, In (id, r) rows /\ asat r c q).
Proof.
  intros ixs rows c q D L T Q. unfold aquery_ok in Q. unfold index_search. destruct (ixs c) as [[fmt bs batches|l|l]|]; [| | |destruct Q]; specialize (T _ eq_refl); cbn [trained_on] in T; destruct q as [q|q]; try contradiction.
  - destruct T as [S [F P]].
    assert (IDS : ids_ok (concat batches)). { unfold ids_ok. rewrite Forall_forall in *. intros x J. apply (Permutation_in _ P) in J. apply in_map_iff in J as [p [<- J]]. exact (L p J). }
    destruct (bt_search_spec fmt bs batches q S F IDS Q) as [t [E A]]. exists t. split; [exact E|]. split; [eapply bt_search_good; exact E|].
    intros id X. rewrite (A id X). cbn [asat]. split.
    + intros [v [J M]]. apply (Permutation_in _ P) in J. apply in_map_iff in J as [[i r] [E1 J]]. cbn [fst snd] in E1. injection E1 as <- ->. exists r. auto.
    + intros [r [J M]]. exists (r_col r c). split; [|exact M]. apply (Permutation_in _ (Permutation_sym P)). apply in_map_iff. exists (id, r). auto.
  - assert (IDS : ids_ok l). { unfold ids_ok. rewrite Forall_forall in *. intros x J. apply (Permutation_in _ T) in J. apply in_map_iff in J as [p [<- J]]. exact (L p J). }
    destruct (bi_search_spec l q IDS Q) as [t [E A]]. exists t. split; [exact E|]. split; [eapply bi_search_good; [apply train_indexes; exact IDS|exact E]|].
    intros id X. rewrite (A id X). cbn [asat]. split.
    + intros [v [J M]]. apply (Permutation_in _ T) in J. apply in_map_iff in J as [[i r] [E1 J]]. cbn [fst snd] in E1. injection E1 as <- ->. exists r. auto.
    + intros [r [J M]]. exists (r_col r c). split; [|exact M]. apply (Permutation_in _ (Permutation_sym T)). apply in_map_iff. exists (id, r). auto.
  - assert (LL : Forall (fun r : lrow => (snd r < two64)%N) l). { rewrite Forall_forall in *. intros x J. apply (Permutation_in _ T) in J. apply in_map_iff in J as [p [<- J]]. exact (L p J). }
    assert (DL : NoDup (map snd l)). { eapply Permutation_NoDup; [apply Permutation_sym, Permutation_map; exact T|]. rewrite map_map. cbn [snd]. exact D. }
    assert (IDS : ids_ok (unnest l)). { unfold ids_ok. rewrite Forall_forall in *. intros [v i] J. apply unnest_In in J as [x [J _]]. exact (LL _ J). }
    destruct (ll_search_spec l q LL DL Q) as [t [E A]]. exists t. split; [exact E|]. split; [eapply ll_search_good; eauto|].
    intros id X. rewrite (A id X). cbn [asat]. split.
    + intros [x [J M]]. apply (Permutation_in _ T) in J. apply in_map_iff in J as [[i r] [E1 J]]. cbn [fst snd] in E1. injection E1 as E1 ->. exists r. split; [exact J|]. exists x. auto.
    + intros [r [J [x [E1 M]]]]. exists x. split; [|exact M]. apply (Permutation_in _ (Permutation_sym T)). apply in_map_iff. exists (id, r). rewrite <- E1. auto.
Qed.

(* indices trained on [rows], which include the live rows of the scanned fragments *)
Lemma trained_leaves : forall ixs rows sub s, NoDup (map fst rows) -> Forall (fun p : N * row => (fst p < two64)%N) rows -> incl sub rows ->
  (forall c ix, ixs c = Some ix -> trained_on rows c ix) -> queries_ok ixs s -> leaves_ok (index_search ixs) sub s.
Proof.
  intros ixs rows sub s D L I T. induction s as [a IH|a IHa b IHb|a IHa b IHb|c q]; cbn [queries_ok leaves_ok]; intros Q; try tauto.
  destruct (trained_leaf ixs rows c q D L (T c) Q) as [t [E [[W P] A]]]. exists t. split; [exact E|]. split; [exact W|]. split; [exact P|]. intros id r J.
  assert (X : (id < two64)%N) by (rewrite Forall_forall in L; exact (L _ (I _ J))). rewrite (A id X). split.
  - intros [r' [J' S]]. assert (r' = r); [|subst; exact S]. apply (find_live rows id r' D) in J'. pose proof (find_live rows id r D (I _ J)) as F1. congruence.
  - intros S. exists r. auto.
Qed.
Lemma trained_in : forall ixs rows (P : N -> Prop) s, NoDup (map fst rows) -> Forall (fun p : N * row => (fst p < two64)%N) rows ->
  (forall c ix, ixs c = Some ix -> trained_on rows c ix) -> queries_ok ixs s -> (forall id r, In (id, r) rows -> P id) -> leaves_in (index_search ixs) P s.
Proof.
  intros ixs rows P s D L T. induction s as [a IH|a IHa b IHb|a IHa b IHb|c q]; cbn [queries_ok leaves_in]; intros Q H; try tauto.
  - intros t E x X C. destruct (trained_leaf ixs rows c q D L (T c) Q) as [t' [E' [_ A]]]. rewrite E in E'. injection E' as <-. apply (A x X) in C as [r [J _]]. exact (H x r J).
Qed.

(* an index trained on the rows of the covered fragments (some of which may have been
   deleted since), then a scan of some fragments of the table *)
Theorem trained_scan_spec : forall stable ds requested trained f ixs bitmap e,
  sds_ok stable ds -> incl requested ds -> NoDup (map s_id requested) ->
  (forall id r, In (id, r) (live stable requested) -> typed f r /\ nullsafe r e) ->
  NoDup (map fst trained) -> Forall (fun p : N * row => (fst p < two64)%N) trained ->
  (forall c ix, ixs c = Some ix -> trained_on trained c ix) ->
  (forall s, scalar_query (apply_scalar_indices f e) = Some s ->
     let rel := filter (fun g => memN (s_id g) (covered_frags bitmap s)) requested in
     shape_of s <> None /\ queries_ok ixs s /\ incl (live stable rel) trained /\
     (if stable
      then shape_of s = Some ShB -> (forall g, In g rel -> fr_dv (s_frag g) = None) -> forall id r, In (id, r) trained -> In id (flat_map (frag_ids true) rel)
      else forall id r, In (id, r) trained -> In (fragment_id id) (map s_id rel) -> In id (flat_map (frag_ids false) rel)) /\
     forall g, In g requested -> memN (s_id g) (covered_frags bitmap s) = false -> to_expr s <> None /\ forall id r, In (id, r) (frag_live stable g) -> boolsafe r e) ->
  exists out, filtered_scan stable ds requested f (index_search ixs) bitmap e = Some out /\
    Permutation out (filter (fun p => passes (snd p) e) (live stable requested)).
Proof.
  intros stable ds requested trained f ixs bitmap e O I D TN DT LT T H. apply filtered_scan_spec; auto. intros s E. specialize (H s E). cbv zeta in *.
  destruct H as [SH [Q [IN [WI UN]]]]. split; [exact SH|]. split; [eapply trained_leaves; eauto|]. split; [|exact UN].
  unfold leaves_within. destruct stable.
  - intros SB ND. eapply trained_in; eauto.
  - eapply trained_in; eauto.
Qed.
