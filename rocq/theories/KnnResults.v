(* C113 continued: the queries as the scanner runs them. *)
From Coq Require Import List Arith NArith ZArith QArith Bool Lia Permutation Sorted.
From Verif Require Import Lib AMap RowIdsModel RowIdsSpec SerdeModel TreeMapModel TreeMapProofs TreeMapProofs2 MaskProofs SeqSetProofs
  DeletionModel TakeModel ScalarModel ScalarProofs BitmapIndexProofs IndexExprModel IndexExprProofs ScanModel ScanProofs ScanIndexProofs ScanExamples ScanCover KnnModel KnnProofs KnnPlan.
Import ListNotations.
Local Open Scope nat_scope.

(* the scan of a filter is exact (C18) *)
Definition scan_ok (stable : bool) (requested : list sfrag) (f : info) (search : N -> aquery -> option tmap) (bitmap : N -> list N) (e : expr) : Prop :=
  (forall id r, In (id, r) (live stable requested) -> typed f r /\ nullsafe r e) /\
  (forall s, scalar_query (apply_scalar_indices f e) = Some s ->
     let rel := filter (all_cover bitmap s) requested in
     shape_of s <> None /\ leaves_ok search (live stable rel) s /\ leaves_within stable search s rel /\
     forall g, In g requested -> all_cover bitmap s g = false -> to_expr s <> None /\ forall id r, In (id, r) (frag_live stable g) -> boolsafe r e).
(* a filter that the scalar indices answer alone: they know the rows of all fragments of the vector index *)
Definition answered (stable : bool) (ds : list sfrag) (f : info) (search : N -> aquery -> option tmap) (bs : list (list N)) (e : expr) (s : sidx) : Prop :=
  (forall id r, In (id, r) (live stable (filter (indexed bs) ds)) -> typed f r /\ nullsafe r e) /\
  shape_of s <> None /\ leaves_ok search (live stable (filter (indexed bs) ds)) s /\
  (shape_of s = Some ShA \/ forall b k, In b bs -> In k b -> exists g, In g ds /\ s_id g = k).
Definition filter_ok (stable : bool) (ds : list sfrag) (f : info) (search : N -> aquery -> option tmap) (bitmap : N -> list N) (bs : list (list N)) (e : option expr) : Prop :=
  match e with
  | None => True
  | Some e =>
      match scalar_query (apply_scalar_indices f e), refine_expr (apply_scalar_indices f e) with
      | Some s, None => answered stable ds f search bs e s
      | _, _ => scan_ok stable ds f search bitmap e
      end
  end.

Lemma extend_am_wf : forall ids t, t_wf t -> t_wf (t_extend ids t).
Proof. unfold t_extend. induction ids as [|v ids IH]; intros t W; cbn; auto. apply IH. apply insert_wf. exact W. Qed.
Lemma nil_t_wf : t_wf [].
Proof. split; [exact Logic.I|constructor]. Qed.
Lemma prefilter_spec : forall stable ds f search bitmap bs e, sds_ok stable ds -> filter_ok stable ds f search bitmap bs e ->
  exists filtered, prefilter_mask stable ds None f search bitmap e = Some filtered /\ Forall (fun b => combinable ds b filtered) bs /\
    forall g id r, In g ds -> indexed bs g = true -> In (id, r) (frag_live stable g) -> (sel_opt filtered id = true <-> passing e (id, r) = true).
Proof.
  intros stable ds f search bitmap bs [e|] O H.
  2:{ exists None. split; [reflexivity|]. split; [apply Forall_forall; intros; exact Logic.I|]. intros. cbn. tauto. }
  cbn [filter_ok prefilter_mask] in *.
  assert (SC : scan_ok stable ds f search bitmap e -> exists out, filtered_scan stable ds ds f search bitmap e = Some out /\ (Forall (fun b => combinable ds b (Some (from_allowed (t_extend (map fst out) [])))) bs /\
    forall g id r, In g ds -> indexed bs g = true -> In (id, r) (frag_live stable g) -> (sel_opt (Some (from_allowed (t_extend (map fst out) []))) id = true <-> passing (Some e) (id, r) = true))).
  { intros [TN HS]. destruct (covered_scan_spec stable ds ds f search bitmap e O (incl_refl _) (proj1 (proj2 O)) TN HS) as [out [E P]]. exists out. split; [exact E|]. split.
    - apply Forall_forall. intros b _. cbn [combinable]. split; [|left; reflexivity]. split; [cbn; exact (proj1 (extend_am_wf _ _ nil_t_wf))|exact Logic.I].
    - assert (LT : forall id r, In (id, r) (live stable ds) -> (id < two64)%N).
      { intros id r J. apply live_in_ds in J as [g [Jg J]]. pose proof (proj1 O) as F. rewrite Forall_forall in F. eapply ids_lt; [exact (F g Jg)|eapply frag_live_id; eauto]. }
      intros g id r Jg _ J. assert (L : In (id, r) (live stable ds)) by (apply live_in_ds; exists g; auto). cbn [sel_opt passing snd]. rewrite selected_spec. unfold allows, blocks. cbn [from_allowed allow block negb]. rewrite andb_true_r.
      rewrite extend_spec; [|apply Forall_forall; intros i K; apply in_map_iff in K as [[i' r'] [<- K]]; cbn [fst]; eapply Permutation_in in K; [|exact P]; apply filter_In in K as [K _]; eapply LT; exact K|eapply LT; exact L].
      cbn [t_contains get]. rewrite orb_false_r, memN_In, in_map_iff. split.
      + intros [[i r'] [E1 K]]. cbn [fst] in E1. subst i. eapply Permutation_in in K; [|exact P]. apply filter_In in K as [K X]. assert (r' = r) by (eapply live_unique; eauto). subst r'. exact X.
      + intros X. exists (id, r). split; [reflexivity|]. eapply Permutation_in; [apply Permutation_sym; exact P|]. apply filter_In. auto. }
  destruct (scalar_query (apply_scalar_indices f e)) as [s|] eqn:ES; [destruct (refine_expr (apply_scalar_indices f e)) as [x|] eqn:ER|].
  - destruct (SC H) as [out [E R]]. rewrite E. cbn [omap]. eexists. split; [reflexivity|]. exact R.
  - clear SC. destruct H as [TN [SH [LO BP]]]. destruct (shape_of s) as [sh|] eqn:SHE; [clear SH|congruence]. destruct (evaluate_spec search _ s sh SHE LO) as [mk [E [HS [G SEL]]]]. rewrite E. cbn [omap]. exists (Some mk). split; [reflexivity|]. split.
    + apply Forall_forall. intros b Jb. cbn [combinable]. split; [apply good_wf; exact G|]. destruct BP as [BP|BP]; [left; injection BP as ->; cbn in HS; tauto|right; intros k K; eapply BP; eauto].
    + intros g id r Jg IG J. assert (L : In (id, r) (live stable (filter (indexed bs) ds))) by (apply live_in_ds; exists g; split; [apply filter_In; auto|exact J]). cbn [sel_opt passing snd]. rewrite (SEL id r L), passes_holds.
      destruct (TN id r L) as [TY NS]. unfold apply_scalar_indices in ES, ER. destruct (visit f e) as [i|] eqn:V; [|discriminate]. rewrite <- (visit_sound f r e i TY NS V). unfold iholds. rewrite ES, ER. tauto.
  - destruct (SC H) as [out [E R]]. rewrite E. destruct (refine_expr (apply_scalar_indices f e)); cbn [omap]; (eexists; split; [reflexivity|]; exact R).
Qed.

Lemma unindexed_spec : forall stable ds deltas bs, sds_ok stable ds -> Forall2 (delta_ok stable ds) deltas bs -> unindexed ds deltas = Some (filter (fun g => negb (indexed bs g)) ds).
Proof.
  intros stable ds deltas bs O F. unfold unindexed. assert (E : sequence_opt (map dl_bitmap deltas) = Some bs).
  { induction F as [|d b dl bl H F IH]; [reflexivity|]. cbn [map sequence_opt]. rewrite (do_bitmap _ _ _ _ H). cbn [sequence_opt]. rewrite IH. reflexivity. }
  rewrite E. cbn [omap]. f_equal. pose proof (proj1 O) as FO. rewrite Forall_forall in FO. apply filter_ext_in. intros g J. f_equal. unfold indexed. rewrite sfrag_mod by exact (proj1 (FO g J)).
  induction bs as [|b l IH] in |- *; [reflexivity|]. cbn [existsb]. rewrite existsb_eqb, IH. reflexivity.
Qed.
Lemma live_split : forall stable ds bs e, Permutation (filter (passing e) (live stable ds)) (filter (passing e) (live stable (filter (indexed bs) ds)) ++ filter (passing e) (live stable (filter (fun g => negb (indexed bs g)) ds))).
Proof. intros stable ds bs e. rewrite <- filter_app. apply perm_filter. unfold live. rewrite <- flat_map_app. apply Permutation_flat_map. apply filter_split. Qed.

Section Results.
  Context {M : Type} (dist : M -> row -> option Q) (sort : forall A, (A -> option Q) -> list A -> list A) (SK : sorts_keys sort).

  (* without an index: the nearest rows among those that pass the filter *)
  Theorem flat_query_exact : forall stable ds maxf requested f search bitmap e q ix,
    sds_ok stable ds -> incl (match requested with Some fs => fs | None => ds end) ds -> NoDup (map s_id (match requested with Some fs => fs | None => ds end)) ->
    nq_use_index q = false \/ ix = None ->
    (forall e', e = Some e' -> scan_ok stable (match requested with Some fs => fs | None => ds end) f search bitmap e') ->
    exists res, knn dist sort stable ds maxf requested f search bitmap e q ix = Some res /\
      nearest snd (nq_k q) (near dist (nq_metric q) (nq_low q) (nq_up q) (filter (passing e) (live stable (match requested with Some fs => fs | None => ds end)))) res.
  Proof.
    intros stable ds maxf requested f search bitmap e q ix O I D U H. unfold knn. replace (if nq_use_index q then ix else None) with (@None (M * list delta)) by (destruct U as [-> | ->]; [reflexivity|destruct (nq_use_index q); reflexivity]).
    set (fs := match requested with Some fs => fs | None => ds end) in *. destruct e as [e|].
    - destruct (H e eq_refl) as [TN HS]. destruct (covered_scan_spec stable ds fs f search bitmap e O I D TN HS) as [out [E P]]. rewrite E. cbn [omap]. eexists. split; [reflexivity|].
      eapply nearest_perm; [|apply (flat_knn_nearest dist sort SK)]. apply near_perm. exact P.
    - cbn [omap]. eexists. split; [reflexivity|]. replace (filter (passing None) (live stable fs)) with (live stable fs); [apply (flat_knn_nearest dist sort SK)|]. symmetry. apply filter_all. intros x _. reflexivity.
  Qed.

  Definition refined (q : nquery M) : bool := match nq_refine q with Some _ => true | None => false end.
  (* any number of probes and any approximation of the distances: the rows found by the index are live rows of its
     fragments that pass the filter; if the query refines, or if there are rows outside of the index, the answer is the nearest of
     the found rows and the other ones *)
  Theorem indexed_query_sound : forall stable ds maxf f search bitmap e q m deltas bs,
    sds_ok stable ds -> Forall2 (delta_ok stable ds) deltas bs -> disjoint_bitmaps bs -> filter_ok stable ds f search bitmap bs e ->
    nq_use_index q = true -> nq_refine q <> Some 0 ->
    exists found A res, found_rows stable ds e q deltas bs found A /\
      knn dist sort stable ds maxf None f search bitmap e q (Some (m, deltas)) = Some res /\
      if negb (refined q) && (nq_fast q || forallb (indexed bs) ds)
      then res = combine A (map snd found)
      else nearest snd (nq_k q) (near dist m (nq_low q) (nq_up q) (A ++ (if nq_fast q then [] else filter (passing e) (live stable (filter (fun g => negb (indexed bs g)) ds))))) res.
  Proof.
    intros stable ds maxf f search bitmap e q m deltas bs O DO DJ FO U R. destruct (prefilter_spec stable ds f search bitmap bs e O FO) as [filtered [EP [CM FM]]].
    destruct (ann_found dist sort SK stable ds maxf filtered e m q deltas bs O DO DJ CM FM) as [found [A [EA FR]]]. exists found, A.
    unfold knn. rewrite U, EP. cbn [obind]. rewrite EA. cbn [obind]. pose proof FR as [ET [MF _]]. rewrite ET. cbn [obind]. rewrite (unindexed_spec stable ds deltas bs O DO). cbn [omap].
    replace (match nq_refine q with Some 0 => true | _ => false end) with false by (destruct (nq_refine q) as [[|]|]; congruence).
    set (k := nq_k q). set (lo := nq_low q). set (hi := nq_up q). set (un := filter (fun g => negb (indexed bs g)) ds).
    assert (MFST : map fst (combine A (map snd found)) = A). { apply map_fst_combine. rewrite map_length, <- (map_length fst A), MF, map_length. reflexivity. }
    assert (NE : forallb (indexed bs) ds = match un with [] => true | _ => false end).
    { unfold un. clear. induction ds as [|g l IH]; [reflexivity|]. cbn [forallb filter]. destruct (indexed bs g); cbn [negb andb]; [exact IH|reflexivity]. }
    rewrite NE. unfold refined. set (nearr := match nq_refine q with Some _ => flat_knn dist sort m k lo hi A | None => combine A (map snd found) end).
    assert (NR : nq_refine q <> None -> nearest snd k (near dist m lo hi A) nearr) by (unfold nearr; intros X; destruct (nq_refine q); [apply (flat_knn_nearest dist sort SK)|congruence]).
    (* joining the rows outside of the index *)
    assert (J2 : nearest snd k (near dist m lo hi (A ++ filter (passing e) (live stable un)))
      (flat_knn dist sort m k lo hi (map fst (flat_knn dist sort m k lo hi (filter (passing e) (live stable un))) ++ map fst nearr))).
    { pose proof (flat_knn_nearest dist sort SK m k lo hi (map fst (flat_knn dist sort m k lo hi (filter (passing e) (live stable un))) ++ map fst nearr)) as X. rewrite near_app in X.
      pose proof (flat_knn_nearest dist sort SK m k lo hi (filter (passing e) (live stable un))) as Y.
      rewrite (near_of_near dist m lo hi (filter (passing e) (live stable un))) in X by exact (nearest_incl _ _ _ _ Y).
      apply (nearest_compose _ _ _ _ _ _ _ Y (Nat.le_refl k)) in X. rewrite near_app. eapply nearest_perm in X; [|apply Permutation_app_comm]. unfold nearr in *. destruct (nq_refine q) as [n|].
      - specialize (NR ltac:(discriminate)). rewrite (near_of_near dist m lo hi A) in X by exact (nearest_incl _ _ _ _ NR). exact (nearest_compose _ _ _ _ _ _ _ NR (Nat.le_refl k) X).
      - rewrite MFST in X |- *. exact X. }
    destruct (nq_fast q) eqn:EF.
    - eexists. split; [exact FR|]. split; [reflexivity|]. rewrite app_nil_r. unfold nearr in *. destruct (nq_refine q) as [n|]; cbn [negb andb orb]; [apply NR; discriminate|reflexivity].
    - eexists. split; [exact FR|]. split; [reflexivity|]. cbn [orb]. destruct un as [|g l] eqn:EU.
      + cbn [live flat_map filter]. rewrite app_nil_r. unfold nearr in *. destruct (nq_refine q) as [n|]; cbn [negb andb]; [apply NR; discriminate|reflexivity].
      + rewrite andb_false_r. exact J2.
  Qed.

  (* an index with the distances of the vectors, on all rows of its fragments that have one, searched wholly *)
  Definition exact_index (stable : bool) (ds : list sfrag) (m : M) (probes : nat) (deltas : list delta) (bs : list (list N)) : Prop :=
    Forall2 (delta_ok stable ds) deltas bs /\ disjoint_bitmaps bs /\
    (forall d b g id r, In d deltas -> dl_bitmap d = Some b -> In g ds -> In (s_id g) b -> In (id, r) (frag_live stable g) -> dist m r <> None -> exists x, In (id, x) (dl_entries d)) /\
    (forall d id r x, In d deltas -> In (id, r) (live stable ds) -> In (id, x) (dl_entries d) -> dist m r = Some x) /\
    (forall d, In d deltas -> length (dl_parts d) <= probes).
  (* exact distances, all partitions probed: the nearest rows of all that pass the filter *)
  Theorem indexed_query_exact : forall stable ds maxf f search bitmap e q m deltas bs,
    sds_ok stable ds -> exact_index stable ds m (nq_probes q) deltas bs -> filter_ok stable ds f search bitmap bs e ->
    nq_use_index q = true -> nq_refine q <> Some 0 ->
    exists res, knn dist sort stable ds maxf None f search bitmap e q (Some (m, deltas)) = Some res /\
      nearest snd (nq_k q) (near dist m (nq_low q) (nq_up q) (filter (passing e) (live stable (if nq_fast q then filter (indexed bs) ds else ds)))) res.
  Proof.
    intros stable ds maxf f search bitmap e q m deltas bs O [DO [DJ [CO [EX ALL]]]] FO U R. destruct (prefilter_spec stable ds f search bitmap bs e O FO) as [filtered [EP [CM FM]]].
    destruct (ann_exact dist sort SK stable ds maxf filtered e m q deltas bs O DO DJ CM FM CO EX ALL) as [found [A [EA [ET [SND NA]]]]].
    unfold knn. rewrite U, EP. cbn [obind]. rewrite EA. cbn [obind]. rewrite ET. cbn [obind]. rewrite (unindexed_spec stable ds deltas bs O DO). cbn [omap].
    replace (match nq_refine q with Some 0 => true | _ => false end) with false by (destruct (nq_refine q) as [[|]|]; congruence).
    set (k := nq_k q) in *. set (lo := nq_low q) in *. set (hi := nq_up q) in *. set (un := filter (fun g => negb (indexed bs g)) ds). set (I := filter (passing e) (live stable (filter (indexed bs) ds))) in *.
    assert (CB : combine (map fst A) (map snd found) = A) by (rewrite SND; clear; induction A as [|[a b] l IH]; [reflexivity|]; cbn; rewrite IH; reflexivity).
    set (nearr := match nq_refine q with Some _ => flat_knn dist sort m k lo hi (map fst A) | None => combine (map fst A) (map snd found) end).
    assert (KK : k <= kk q). { unfold kk. fold k. destruct (nq_refine q) as [[|n]|]; [congruence| |]; lia. }
    assert (NR : nearest snd k (near dist m lo hi I) nearr).
    { unfold nearr. destruct (nq_refine q) as [n|] eqn:ER.
      - pose proof (flat_knn_nearest dist sort SK m k lo hi (map fst A)) as X. rewrite (near_of_near dist m lo hi I) in X by exact (nearest_incl _ _ _ _ NA). exact (nearest_compose1 _ _ _ _ _ _ NA KK X).
      - rewrite CB. replace (kk q) with k in NA; [exact NA|]. unfold kk. rewrite ER. fold k. lia. }
    destruct (nq_fast q) eqn:EF; [eexists; split; [reflexivity|exact NR]|]. eexists. split; [reflexivity|].
    eapply nearest_perm; [apply near_perm, Permutation_sym, (live_split stable ds bs e)|]. fold I. fold un. rewrite near_app. destruct un as [|g l] eqn:EU; [cbn [live flat_map filter near]; rewrite app_nil_r; exact NR|]. rewrite <- EU in *.
    pose proof (flat_knn_nearest dist sort SK m k lo hi (map fst (flat_knn dist sort m k lo hi (filter (passing e) (live stable un))) ++ map fst nearr)) as X. rewrite near_app in X.
    pose proof (flat_knn_nearest dist sort SK m k lo hi (filter (passing e) (live stable un))) as Y.
    rewrite (near_of_near dist m lo hi (filter (passing e) (live stable un))) in X by exact (nearest_incl _ _ _ _ Y).
    rewrite (near_of_near dist m lo hi I) in X by exact (nearest_incl _ _ _ _ NR).
    apply (nearest_compose _ _ _ _ _ _ _ Y (Nat.le_refl k)) in X. eapply nearest_perm in X; [|apply Permutation_app_comm]. exact (nearest_compose _ _ _ _ _ _ _ NR (Nat.le_refl k) X).
  Qed.

  (* a query with the filter after the search *)
  Theorem postfiltered_query_exact : forall stable ds maxf f search bitmap e q m deltas bs,
    sds_ok stable ds -> exact_index stable ds m (nq_probes q) deltas bs -> nq_prefilter q = false -> nq_use_index q = true -> nq_refine q <> Some 0 ->
    exists all, nearest snd (nq_k q) (near dist m (nq_low q) (nq_up q) (live stable (if nq_fast q then filter (indexed bs) ds else ds))) all /\
      nearest_scan dist sort stable ds maxf None f search bitmap e q (Some (m, deltas)) = Some (filter (fun p => passing e (fst p)) all).
  Proof.
    intros stable ds maxf f search bitmap e q m deltas bs O X P U R. destruct (indexed_query_exact stable ds maxf f search bitmap None q m deltas bs O X Logic.I U R) as [all [E H]].
    exists all. split; [|unfold nearest_scan; rewrite P, E; reflexivity]. rewrite filter_all in H by reflexivity. exact H.
  Qed.

  (* ---- an index built at an earlier version ---- *)
  (* fragment g is fragment g0 at a later version: rows may have been deleted *)
  Definition later (stable : bool) (g0 g : sfrag) : Prop :=
    frag_ids stable g = frag_ids stable g0 /\ fr_rows (s_frag g) = fr_rows (s_frag g0) /\ incl (deleted g0) (deleted g).
  Definition evolved (stable : bool) (fs0 ds : list sfrag) : Prop :=
    (forall g g0, In g ds -> In g0 fs0 -> s_id g = s_id g0 -> later stable g0 g) /\
    (stable = true -> forall g g0 id, In g ds -> In g0 fs0 -> In id (frag_ids true g) -> In id (frag_ids true g0) -> s_id g = s_id g0).
  Lemma later_live : forall stable g0 g id r, sfrag_ok stable g0 -> sfrag_ok stable g -> later stable g0 g -> In (id, r) (frag_live stable g) -> In (id, r) (frag_live stable g0).
  Proof.
    intros stable g0 g id r O0 O [E1 [E2 I]] J. apply live_In in J as [k [[A B] C]]; [|exact O]. apply live_In; [exact O0|]. exists k. rewrite E1 in A. rewrite E2 in B. split; [split; assumption|]. intros X. apply C. apply I. exact X.
  Qed.
  Lemma evolved_frag : forall stable fs0 ds g g0 id, sds_ok stable fs0 -> sds_ok stable ds -> evolved stable fs0 ds -> In g ds -> In g0 fs0 -> In id (frag_ids stable g) -> In id (frag_ids stable g0) -> s_id g = s_id g0.
  Proof.
    intros stable fs0 ds g g0 id O0 O [_ H] Jg Jg0 I I0. destruct stable; [eapply H; eauto|]. pose proof (proj1 O0) as F0. pose proof (proj1 O) as F. rewrite Forall_forall in F, F0.
    destruct (addrs_frag g id (F g Jg) I) as [<- _]. destruct (addrs_frag g0 id (F0 g0 Jg0) I0) as [<- _]. reflexivity.
  Qed.
  Theorem earlier_delta : forall stable fs0 ds d, sds_ok stable fs0 -> sds_ok stable ds -> evolved stable fs0 ds ->
    dl_bitmap d = Some (map s_id fs0) -> NoDup (map fst (dl_entries d)) -> (forall id x, In (id, x) (dl_entries d) -> exists r, In (id, r) (live stable fs0)) ->
    delta_ok stable ds d (map s_id fs0).
  Proof.
    intros stable fs0 ds d O0 O EV B ND EN. pose proof (proj1 O0) as F0. pose proof (proj1 O) as F. rewrite Forall_forall in F, F0.
    assert (EN' : forall id x, In (id, x) (dl_entries d) -> exists g0, In g0 fs0 /\ In id (frag_ids stable g0)).
    { intros id x J. destruct (EN id x J) as [r R]. apply live_in_ds in R as [g0 [Jg0 R]]. exists g0. split; [exact Jg0|]. eapply frag_live_id; [apply F0; exact Jg0|exact R]. }
    constructor.
    - exact B.
    - apply Forall_forall. intros k J. apply in_map_iff in J as [g0 [<- J]]. exact (proj1 (F0 g0 J)).
    - exact ND.
    - intros id x J. destruct (EN' id x J) as [g0 [Jg0 I]]. eapply ids_lt; [exact (F0 g0 Jg0)|exact I].
    - intros id x J. destruct (EN' id x J) as [g0 [Jg0 I]]. destruct stable.
      + destruct (frag_or_not ds (s_id g0)) as [[g [Jg E]]|X]; [left|right; exists (s_id g0); split; [apply in_map; exact Jg0|exact X]]. exists g. split; [exact Jg|]. rewrite E. split; [apply in_map; exact Jg0|]. destruct (proj1 EV g g0 Jg Jg0 E) as [-> _]. exact I.
      + destruct (addrs_frag g0 id (F0 g0 Jg0) I) as [E _]. rewrite E. split; [apply in_map; exact Jg0|]. intros g Jg Eg. destruct (proj1 EV g g0 Jg Jg0 Eg) as [-> _]. exact I.
    - intros g id r x Jg R J. destruct (EN' id x J) as [g0 [Jg0 I]]. rewrite (evolved_frag stable fs0 ds g g0 id O0 O EV Jg Jg0); [apply in_map; exact Jg0|eapply frag_live_id; [exact (F g Jg)|exact R]|exact I].
  Qed.
  (* the deltas of an index built by computing the distances of the live rows of disjoint sets of fragments *)
  Definition built (stable : bool) (m : M) (fs0 : list sfrag) (d : delta) : Prop :=
    dl_bitmap d = Some (map s_id fs0) /\ Permutation (dl_entries d) (map (fun p => (fst (fst p), snd p)) (near dist m None None (live stable fs0))).
  Lemma near_ids_nodup : forall m lo hi (l : list (N * row)), NoDup (map fst l) -> NoDup (map (fun p => fst (fst p)) (near dist m lo hi l)).
  Proof.
    intros m lo hi l. unfold near. induction l as [|p l IH]; cbn; intros X; [constructor|]. inversion X as [|? ? X1 X2]; subst. rewrite map_app. apply NoDup_app_intro; [|apply IH; exact X2|].
    - destruct (dist m (snd p)) as [x|]; [|constructor]. destruct (in_range lo hi x); repeat constructor; intros [].
    - intros id J1 J2. destruct (dist m (snd p)) as [x|]; [|destruct J1]. destruct (in_range lo hi x); [|destruct J1]. destruct J1 as [<-|[]]. cbn [fst] in *. apply X1. apply in_map_iff in J2 as [[p' d'] [E2 J2]]. cbn [fst] in E2. rewrite <- E2.
      apply in_flat_map in J2 as [p2 [J2 J3]]. destruct (dist m (snd p2)) as [y|]; [|destruct J3]. destruct (in_range lo hi y); [|destruct J3]. destruct J3 as [J3|[]]. injection J3 as <- _. apply in_map. exact J2.
  Qed.
  Theorem built_exact : forall stable ds m probes deltas fss, sds_ok stable ds -> Forall (fun fs0 => sds_ok stable fs0 /\ evolved stable fs0 ds) fss ->
    Forall2 (built stable m) fss deltas -> disjoint_bitmaps (map (map s_id) fss) -> (forall d, In d deltas -> length (dl_parts d) <= probes) ->
    exact_index stable ds m probes deltas (map (map s_id) fss).
  Proof.
    intros stable ds m probes deltas fss O FO F DJ ALL. pose proof (proj1 O) as FD. rewrite Forall_forall in FD.
    assert (ONE : forall d, In d deltas -> exists fs0, In fs0 fss /\ built stable m fs0 d).
    { clear -F. induction F as [|fs0 d fss deltas H F IH]; intros d' J; [destruct J|]. destruct J as [<-|J]; [exists fs0; split; [left; reflexivity|exact H]|]. destruct (IH d' J) as [x [A B]]. exists x. split; [right; exact A|exact B]. }
    rewrite Forall_forall in FO.
    assert (ENT : forall fs0 d id x, built stable m fs0 d -> In (id, x) (dl_entries d) <-> exists r, In (id, r) (live stable fs0) /\ dist m r = Some x).
    { intros fs0 d id x [_ P]. split.
      - intros J. eapply Permutation_in in J; [|exact P]. apply in_map_iff in J as [[[i r] x'] [E J]]. cbn [fst snd] in E. injection E as -> ->. apply near_In in J as [J [D _]]. exists r. auto.
      - intros [r [J D]]. eapply Permutation_in; [apply Permutation_sym; exact P|]. apply in_map_iff. exists ((id, r), x). split; [reflexivity|]. apply near_In. split; [exact J|]. split; [exact D|reflexivity]. }
    split; [|split; [exact DJ|split; [|split; [|exact ALL]]]].
    - assert (G : forall fs0 d, In fs0 fss -> built stable m fs0 d -> delta_ok stable ds d (map s_id fs0)).
      { intros fs0 d J H. destruct (FO fs0 J) as [O0 EV]. apply earlier_delta; auto; [exact (proj1 H)| |].
        - eapply Permutation_NoDup; [apply Permutation_sym, Permutation_map; exact (proj2 H)|]. rewrite map_map. cbn [fst]. apply near_ids_nodup. apply live_fst_nodup. exact O0.
        - intros id x K. destruct (proj1 (ENT fs0 d id x H) K) as [r [K' _]]. exists r. exact K'. }
      clear -F G. induction F as [|fs0 d fss deltas H F IH]; [constructor|]. cbn [map]. constructor; [apply G; [left; reflexivity|exact H]|]. apply IH. intros x y J. apply G. right. exact J.
    - intros d b g id r Jd B Jg K L D. destruct (ONE d Jd) as [fs0 [Jf H]]. pose proof (proj1 H) as B'. rewrite B in B'. injection B' as ->. apply in_map_iff in K as [g0 [E Jg0]]. destruct (FO fs0 Jf) as [O0 EV]. pose proof (proj1 O0) as F0. rewrite Forall_forall in F0.
      destruct (dist m r) as [x|] eqn:X; [|congruence]. exists x. apply (ENT fs0 d id x H). exists r. split; [|exact X]. apply live_in_ds. exists g0. split; [exact Jg0|]. eapply later_live; [exact (F0 g0 Jg0)|exact (FD g Jg)|apply (proj1 EV); auto|exact L].
    - intros d id r x Jd L J. destruct (ONE d Jd) as [fs0 [Jf H]]. destruct (proj1 (ENT fs0 d id x H) J) as [r' [J' D]]. clear J. rename J' into J. destruct (FO fs0 Jf) as [O0 EV]. pose proof (proj1 O0) as F0. rewrite Forall_forall in F0.
      pose proof J as J0. apply live_in_ds in J as [g0 [Jg0 J]]. apply live_in_ds in L as [g [Jg L]]. assert (E : s_id g = s_id g0) by (eapply (evolved_frag stable fs0 ds); eauto; eapply frag_live_id; eauto).
      assert (L0 : In (id, r) (frag_live stable g0)) by (eapply later_live; [exact (F0 g0 Jg0)|exact (FD g Jg)|apply (proj1 EV); auto|exact L]). assert (r' = r); [|subst; exact D]. eapply (live_unique stable fs0 O0 id r' r); [exact J0|apply live_in_ds; exists g0; auto].
  Qed.
End Results.
