(* Proofs about the bitmap and label-list indices (C61, C62) and bitmap remapping (C60). *)
From Coq Require Import List Arith NArith ZArith Lia Bool Sorted.
From Verif Require Import Lib AMap RowIdsModel SerdeModel TreeMapModel TreeMapProofs ScalarModel ScalarProofs.
Import ListNotations.

Definition part_only (m : tmap) : Prop := forall f, get f m <> Some Full.
Definition at_key (k : value) (st : vmap tmap) : tmap := match vget k st with Some m => m | None => [] end.
Lemma vget_In : forall {V} k (st : vmap V) m, vget k st = Some m -> In (k, m) st.
Proof. intros V k. induction st as [|[k0 m0] st IH]; intros m E; [discriminate|]. cbn in E. destruct (veq k k0) eqn:V0; [injection E as ->; apply veq_true in V0; subst; left; reflexivity|right; apply IH; exact E]. Qed.
Lemma In_vget : forall {V} k m (st : vmap V), ksorted st -> In (k, m) st -> vget k st = Some m.
Proof.
  intros V k m. induction st as [|[k0 m0] st IH]; intros S J; [destruct J|]. destruct S as [S1 S2]. cbn. destruct J as [J|J].
  - injection J as -> ->. rewrite (proj2 (veq_true k k) eq_refl). reflexivity.
  - assert (L : vlt k0 k = true) by (apply S1; apply in_map_iff; exists (k, m); auto). destruct (veq k k0) eqn:E; [apply veq_true in E; subst; rewrite vlt_irrefl in L; discriminate|]. apply IH; assumption.
Qed.
Lemma vget_notin : forall {V} k (st : vmap V), ~ In k (map fst st) -> vget k st = None.
Proof. intros V k. induction st as [|[k0 m0] st IH]; intros H; [reflexivity|]. cbn in *. destruct (veq k k0) eqn:E; [apply veq_true in E; exfalso; apply H; left; congruence|apply IH; tauto]. Qed.
Lemma vget_ventry : forall {V} k (d : V) f st k', ksorted st ->
  vget k' (ventry k d f st) = if veq k' k then Some (f (match vget k st with Some m => m | None => d end)) else vget k' st.
Proof.
  intros V k d f. induction st as [|[k0 m0] st IH]; intros k' S; cbn [ventry vget].
  - destruct (veq k' k); reflexivity.
  - destruct S as [S1 S2]. destruct (veq k k0) eqn:E.
    + apply veq_true in E. subst k0. cbn [vget]. destruct (veq k' k); reflexivity.
    + destruct (vlt k k0) eqn:L; cbn [vget].
      * destruct (veq k' k) eqn:E'; [|reflexivity]. rewrite (vget_notin k st); [reflexivity|]. intros J. specialize (S1 k J). apply vlt_le in L. apply vlt_iff in S1. congruence.
      * rewrite IH by exact S2. destruct (veq k' k0) eqn:E0; [|reflexivity]. destruct (veq k' k) eqn:E'; [|reflexivity]. apply veq_true in E0, E'. apply veq_false in E. congruence.
Qed.
Lemma ventry_In : forall {V} k (d : V) f st k' m, ksorted st -> In (k', m) (ventry k d f st) -> (k' = k /\ m = f (match vget k st with Some m => m | None => d end)) \/ In (k', m) st.
Proof.
  intros V k d f st k' m S J. assert (G : vget k' (ventry k d f st) = Some m) by (apply In_vget; [apply ventry_sorted; exact S|exact J]).
  rewrite vget_ventry in G by exact S. destruct (veq k' k) eqn:E; [left; split; [apply veq_true; exact E|congruence]|right; apply vget_In; exact G].
Qed.

(* ---- part-only maps ---- *)
Lemma part_nil : part_only [].
Proof. intros f. discriminate. Qed.
Lemma insert_part : forall v m, part_only m -> part_only (fst (t_insert v m)).
Proof.
  intros v m H f. unfold t_insert. pose proof (H (fragment_id v)) as Hv. destruct (get (fragment_id v) m) as [[|s]|]; cbn [fst]; [congruence| |];
  rewrite get_put; destruct (N.eqb_spec f (fragment_id v)); try discriminate; apply H.
Qed.
Lemma extend_part : forall ids m, part_only m -> part_only (t_extend ids m).
Proof. induction ids as [|x l IH]; intros m H; [exact H|]. cbn. apply IH. apply insert_part. exact H. Qed.
Lemma or_part : forall b a, part_only a -> am_wf b -> part_only b -> part_only (t_or a b).
Proof.
  intros b a Ha W Hb f. rewrite or_get by exact W. specialize (Ha f). specialize (Hb f). destruct (get f b) as [[|s]|], (get f a) as [[|l]|]; cbn; try congruence.
Qed.
Lemma or_contains : forall a b x, am_wf b -> part_only b -> t_contains x (t_or a b) = t_contains x a || t_contains x b.
Proof. intros a b x W H. apply or_spec; [exact W|]. intros f s _. apply H. Qed.

(* ---- the dictionary holds the rows ---- *)
Definition holds (st : vmap tmap) (rows : list vrow) : Prop :=
  ksorted st /\ (forall k m, In (k, m) st -> t_wf m /\ part_only m) /\
  (forall k id, (id < two64)%N -> (t_contains id (at_key k st) = true <-> In (k, id) rows)).
Lemma holds_nil : holds [] [].
Proof. split; [exact I|]. split; [intros k m []|]. intros k id _. cbn. split; [discriminate|intros []]. Qed.
Lemma at_key_ok : forall st rows k, holds st rows -> t_wf (at_key k st) /\ part_only (at_key k st).
Proof. intros st rows k [_ [H _]]. unfold at_key. destruct (vget k st) as [m|] eqn:E; [apply (H k); apply vget_In; exact E|split; [apply nil_wf|apply part_nil]]. Qed.
Lemma add_row_holds : forall st rows r, holds st rows -> (snd r < two64)%N -> holds (add_row st r) (rows ++ [r]).
Proof.
  intros st rows [v i] H Hi. destruct (at_key_ok st rows v H) as [W P]. destruct H as [S [A B]]. cbn [snd] in Hi. unfold add_row. cbn [fst snd]. split; [apply ventry_sorted; exact S|]. split.
  - intros k m J. apply ventry_In in J; [|exact S]. destruct J as [[-> ->]|J]; [|apply (A k); exact J]. split; [apply insert_wf; exact W|apply insert_part; exact P].
  - intros k id Hid. rewrite in_app_iff. unfold at_key. rewrite vget_ventry by exact S. destruct (veq k v) eqn:E.
    + apply veq_true in E. subst k. rewrite insert_spec by assumption. fold (at_key v st). rewrite orb_true_iff, (B v id Hid), N.eqb_eq. cbn. split; [intros [->|J]; auto|intros [J|[J|[]]]; [auto|injection J as ->; auto]].
    + fold (at_key k st). rewrite (B k id Hid). apply veq_false in E. cbn. split; [auto|intros [J|[J|[]]]; [exact J|injection J as -> _; congruence]].
Qed.
Lemma train_holds : forall new st rows, holds st rows -> ids_ok new -> holds (bi_train_state new st) (rows ++ new).
Proof.
  induction new as [|r new IH]; intros st rows H IDS; [rewrite app_nil_r; exact H|]. inversion IDS as [|? ? I1 I2]; subst. cbn. replace (rows ++ r :: new) with ((rows ++ [r]) ++ new) by (rewrite <- app_assoc; reflexivity).
  apply IH; [apply add_row_holds; assumption|exact I2].
Qed.
(* the loaded index *)
Definition indexes (t : bitmap_index) (rows : list vrow) : Prop :=
  ksorted (bi_map t) /\ (forall k m, In (k, m) (bi_map t) -> k <> None /\ t_wf m /\ part_only m) /\ t_wf (bi_null t) /\ part_only (bi_null t) /\
  (forall k id, (id < two64)%N -> k <> None -> (t_contains id (at_key k (bi_map t)) = true <-> In (k, id) rows)) /\
  (forall id, (id < two64)%N -> (t_contains id (bi_null t) = true <-> In (None, id) rows)).
Lemma ksorted_filter : forall {V} (f : value * V -> bool) st, ksorted st -> ksorted (filter f st).
Proof.
  intros V f. induction st as [|[k m] st IH]; intros S; [exact I|]. destruct S as [S1 S2]. cbn. destruct (f (k, m)); [|apply IH; exact S2]. split; [|apply IH; exact S2].
  intros k' J. apply S1. apply in_map_iff in J as [p [<- J]]. apply in_map. apply filter_In in J as [J _]. exact J.
Qed.
Lemma vget_filter_nn : forall {V} k (st : vmap V), k <> None -> vget k (filter (fun p => negb (is_none (fst p))) st) = vget k st.
Proof.
  intros V k st Hk. induction st as [|[k0 m] st IH]; [reflexivity|]. cbn [filter fst]. destruct k0 as [z|]; cbn [is_none negb vget]; rewrite IH; [reflexivity|]. destruct k; [reflexivity|congruence].
Qed.
Lemma load_indexes : forall st rows, holds st rows -> indexes (bi_load st) rows.
Proof.
  intros st rows H. pose proof (at_key_ok st rows None H) as [W P]. destruct H as [S [A B]]. unfold indexes, bi_load. cbn [bi_map bi_null]. split; [apply ksorted_filter; exact S|]. split.
  - intros k m J. apply filter_In in J as [J N]. cbn in N. split; [destruct k; [discriminate|discriminate N]|apply (A k); exact J].
  - split; [exact W|]. split; [exact P|]. split; [|intros id Hid; apply (B None id Hid)]. intros k id Hid Hk. unfold at_key. rewrite vget_filter_nn by exact Hk. apply (B k id Hid).
Qed.
Lemma train_indexes : forall rows, ids_ok rows -> indexes (bi_train rows) rows.
Proof. intros rows IDS. apply load_indexes. apply (train_holds rows [] []); [apply holds_nil|exact IDS]. Qed.

(* bounds of a range query on a bitmap index: not null and not crossed *)
Definition bitmap_query_ok (q : query) : Prop :=
  match q with
  | QRange lo hi => bounds_value lo <> Some None /\ bounds_value hi <> Some None /\ range_panics lo hi = false
  | _ => True
  end.
Lemma above_ok : forall lo x, bounds_value lo <> Some None -> (above lo (Some x) = true <-> lower_ok lo x).
Proof.
  intros [|[a|]|[a|]] x H; cbn [above lower_ok bounds_value] in *; try congruence; [tauto| |].
  - cbn. apply Z.leb_le.
  - unfold vlt. cbn. rewrite negb_true_iff, Z.leb_gt. reflexivity.
Qed.
Lemma below_ok : forall hi x, bounds_value hi <> Some None -> (below hi (Some x) = true <-> upper_ok hi x).
Proof.
  intros [|[a|]|[a|]] x H; cbn [below upper_ok bounds_value] in *; try congruence; [tauto| |].
  - cbn. apply Z.leb_le.
  - unfold vlt. cbn. rewrite negb_true_iff, Z.leb_gt. reflexivity.
Qed.
Lemma index_at : forall t rows v, indexes t rows -> let m := if is_none v then bi_null t else at_key v (bi_map t) in
  t_wf m /\ part_only m /\ forall id, (id < two64)%N -> (t_contains id m = true <-> In (v, id) rows).
Proof.
  intros t rows v [S [A [W [P [B C]]]]]. destruct v as [v|]; cbn [is_none].
  - unfold at_key. destruct (vget (Some v) (bi_map t)) as [m|] eqn:E.
    + destruct (A (Some v) m (vget_In _ _ _ E)) as [_ [Wm Pm]]. split; [exact Wm|]. split; [exact Pm|]. intros id Hid. rewrite <- (B (Some v) id Hid) by discriminate. unfold at_key. rewrite E. reflexivity.
    + split; [apply nil_wf|]. split; [apply part_nil|]. intros id Hid. rewrite <- (B (Some v) id Hid) by discriminate. unfold at_key. rewrite E. reflexivity.
  - auto.
Qed.
Lemma bi_search_indexes : forall t rows q, indexes t rows -> bitmap_query_ok q -> exists s, bi_search t q = Some s /\ answers s rows q.
Proof.
  intros t rows q H OK. destruct q as [v|lo hi|vs|]; cbn [bi_search].
  - eexists. split; [reflexivity|]. destruct (index_at t rows v H) as [_ [_ E]]. intros id Hid. unfold at_key in E. rewrite (E id Hid). cbn. split; [eauto|intros [w [J ->]]; exact J].
  - unfold vrange. destruct OK as [O1 [O2 O3]]. rewrite O3. eexists. split; [reflexivity|]. destruct H as [S [A [W [P [B C]]]]]. intros id Hid.
    rewrite union_all_spec; [|apply Forall_forall; intros m J; apply in_map_iff in J as [[k m'] [<- J]]; apply filter_In in J as [J _]; destruct (A k m' J) as [_ [[Wm _] _]]; exact Wm].
    rewrite existsb_exists. split.
    + intros [m [J Cm]]. apply in_map_iff in J as [[k m'] [<- J]]. apply filter_In in J as [J F]. cbn [fst snd] in *. destruct (A k m' J) as [Nk _]. destruct k as [k|]; [|congruence]. exists (Some k). split.
      * apply (B (Some k) id Hid Nk). unfold at_key. rewrite (In_vget _ _ _ S J). exact Cm.
      * apply andb_true_iff in F as [F1 F2]. exists k. split; [reflexivity|]. split; [apply above_ok; assumption|apply below_ok; assumption].
    + intros [v [J [x [-> [L U]]]]]. apply (B (Some x) id Hid) in J; [|discriminate]. unfold at_key in J. destruct (vget (Some x) (bi_map t)) as [m|] eqn:E; [|discriminate]. exists m. split; [|exact J].
      apply in_map_iff. exists (Some x, m). split; [reflexivity|]. apply filter_In. split; [apply vget_In; exact E|]. cbn [fst]. apply andb_true_iff. split; [apply above_ok; assumption|apply below_ok; assumption].
  - eexists. split; [reflexivity|].
    assert (G : forall acc, t_wf acc -> part_only acc -> let s := fold_left (fun acc v => if is_none v then t_or acc (bi_null t) else match vget v (bi_map t) with Some m => t_or acc m | None => acc end) vs acc in
      t_wf s /\ part_only s /\ forall id, (id < two64)%N -> (t_contains id s = true <-> t_contains id acc = true \/ exists v, In (v, id) rows /\ In v vs)).
    { induction vs as [|v vs IH]; intros acc Wa Pa; cbn [fold_left].
      - split; [exact Wa|]. split; [exact Pa|]. intros id _. split; [auto|intros [J|[v [_ []]]]; exact J].
      - destruct (index_at t rows v H) as [Wm [Pm Em]].
        assert (STEP : exists acc', (if is_none v then t_or acc (bi_null t) else match vget v (bi_map t) with Some m => t_or acc m | None => acc end) = acc' /\ t_wf acc' /\ part_only acc' /\
          forall id, (id < two64)%N -> (t_contains id acc' = true <-> t_contains id acc = true \/ In (v, id) rows)).
        { assert (ORC : forall m, t_wf m -> part_only m -> (forall id, (id < two64)%N -> (t_contains id m = true <-> In (v, id) rows)) ->
            t_wf (t_or acc m) /\ part_only (t_or acc m) /\ forall id, (id < two64)%N -> (t_contains id (t_or acc m) = true <-> t_contains id acc = true \/ In (v, id) rows)).
          { intros m W1 P1 E1. split; [apply or_wf; assumption|]. split; [apply or_part; [exact Pa|exact (proj1 W1)|exact P1]|]. intros id Hid. rewrite or_contains by (try exact P1; exact (proj1 W1)). rewrite orb_true_iff, (E1 id Hid). reflexivity. }
          destruct (is_none v) eqn:N.
          - exists (t_or acc (bi_null t)). split; [reflexivity|]. apply ORC; assumption.
          - unfold at_key in *. destruct (vget v (bi_map t)) as [m|].
            + exists (t_or acc m). split; [reflexivity|]. apply ORC; assumption.
            + exists acc. split; [reflexivity|]. split; [exact Wa|]. split; [exact Pa|]. intros id Hid. rewrite <- (Em id Hid). cbn. split; [auto|intros [J|J]; [exact J|discriminate]]. }
        destruct STEP as [acc' [-> [W' [P' E']]]]. destruct (IH OK acc' W' P') as [I1 [I2 I3]]. split; [exact I1|]. split; [exact I2|]. intros id Hid. rewrite (I3 id Hid), (E' id Hid). cbn [In]. split.
        + intros [[J|J]|[w [J K]]]; [auto|right; exists v; auto|right; exists w; auto].
        + intros [J|[w [J [<-|K]]]]; [auto|auto|right; exists w; auto]. }
    destruct (G [] nil_wf part_nil) as [_ [_ E]]. intros id Hid. rewrite (E id Hid). cbn [matches]. split; [intros [J|J]; [discriminate|exact J]|auto].
  - eexists. split; [reflexivity|]. destruct H as [_ [_ [_ [_ [_ C]]]]]. intros id Hid. rewrite (C id Hid). cbn. split; [eauto|intros [w [J ->]]; exact J].
Qed.
Theorem bi_search_spec : forall rows q, ids_ok rows -> bitmap_query_ok q -> exists s, bi_search (bi_train rows) q = Some s /\ answers s rows q.
Proof. intros rows q IDS OK. apply bi_search_indexes; [apply train_indexes; exact IDS|exact OK]. Qed.
(* crossed bounds panic, always *)
Theorem bi_crossed_panics : forall t lo hi, bi_search t (QRange lo hi) = None <-> range_panics lo hi = true.
Proof. intros t lo hi. cbn. unfold vrange. destruct (range_panics lo hi); split; auto; discriminate. Qed.
Theorem bi_crossed_refuted : exists rows q, ids_ok rows /\ bi_search (bi_train rows) q = None.
Proof. exists [(Some 1%Z, 0%N)], (QRange (VInc (Some 5%Z)) (VInc (Some 3%Z))). split; [repeat constructor|reflexivity]. Qed.

(* ---- update = train on everything ---- *)
Definition nn (p : value * tmap) : bool := negb (is_none (fst p)).
Lemma ventry_filter : forall k d f st, filter nn (ventry k d f st) = if is_none k then filter nn st else ventry k d f (filter nn st).
Proof.
  intros [k|] d f st; cbn [is_none].
  - induction st as [|[[k0|] m] st IH]; [reflexivity| |].
    + cbn [ventry filter nn fst is_none negb]. change (nn (Some k0, m)) with true. cbv iota. cbn [ventry]. destruct (veq (Some k) (Some k0)); [reflexivity|]. destruct (vlt (Some k) (Some k0)); [reflexivity|]. cbn [filter]. change (nn (Some k0, m)) with true. cbv iota. rewrite IH. reflexivity.
    + exact IH.
  - destruct st as [|[[k0|] m] st]; reflexivity.
Qed.
Lemma ventry_none : forall k (d : tmap) f st, ksorted st -> vget None (ventry k d f st) = if is_none k then Some (f (match vget None st with Some m => m | None => d end)) else vget None st.
Proof. intros [k|] d f st S; rewrite vget_ventry by exact S; reflexivity. Qed.
Lemma load_step : forall a b r, ksorted a -> ksorted b -> bi_load a = bi_load b -> bi_load (add_row a r) = bi_load (add_row b r).
Proof.
  intros a b [k i] Sa Sb E. unfold bi_load in *. injection E as E1 E2. unfold add_row. cbn [fst snd].
  change (fun p : value * tmap => negb (is_none (fst p))) with nn in *. rewrite !ventry_filter, !ventry_none by assumption. f_equal.
  - rewrite E1. reflexivity.
  - destruct (is_none k); [rewrite E2; reflexivity|exact E2].
Qed.
Lemma load_steps : forall rows a b, ksorted a -> ksorted b -> bi_load a = bi_load b -> bi_load (bi_train_state rows a) = bi_load (bi_train_state rows b).
Proof.
  induction rows as [|r rows IH]; intros a b Sa Sb E; [exact E|]. cbn. apply IH; [apply ventry_sorted; exact Sa|apply ventry_sorted; exact Sb|]. apply load_step; assumption.
Qed.
Lemma train_sorted : forall rows st, ksorted st -> ksorted (bi_train_state rows st).
Proof. induction rows as [|r rows IH]; intros st S; [exact S|]. cbn. apply IH. apply ventry_sorted. exact S. Qed.
Theorem bi_update_spec : forall old new, bi_update new (bi_train old) = bi_train (old ++ new).
Proof.
  intros old new. unfold bi_update. unfold bi_train at 3. unfold bi_train_state at 2. rewrite fold_left_app. change (bi_load (bi_train_state new (ventry None [] (fun _ => bi_null (bi_train old)) (bi_map (bi_train old)))) = bi_load (bi_train_state new (bi_train_state old []))).
  assert (S : ksorted (bi_train_state old [])) by (apply train_sorted; exact I).
  assert (SF : ksorted (bi_map (bi_train old))) by (apply ksorted_filter; exact S).
  apply load_steps; [apply ventry_sorted; exact SF|exact S|].
  unfold bi_load. change (fun p : value * tmap => negb (is_none (fst p))) with nn. rewrite ventry_filter, ventry_none by exact SF. cbn [is_none]. unfold bi_train, bi_load. cbn [bi_map bi_null]. change (fun p : value * tmap => negb (is_none (fst p))) with nn. f_equal.
  set (st := bi_train_state old []). clearbody st. clear. induction st as [|p st IH]; [reflexivity|]. cbn. destruct (nn p) eqn:E; cbn; [rewrite E, IH; reflexivity|exact IH].
Qed.
Example bitmap_example : let rows := [(Some 5%Z, 1%N); (None, 2%N); (Some 9%Z, 3%N); (Some 5%Z, 4294967300%N)] in
  ids_ok rows /\ bitmap_query_ok (QRange (VInc (Some 5%Z)) (VExc (Some 9%Z))) /\
  omap t_row_ids (bi_search (bi_train rows) (QRange (VInc (Some 5%Z)) (VExc (Some 9%Z)))) = Some (Some [1; 4294967300]%N) /\
  omap t_row_ids (bi_search (bi_train rows) (QIn [Some 9%Z; None])) = Some (Some [2; 3]%N) /\
  bi_update [(None, 8%N)] (bi_train rows) = bi_train (rows ++ [(None, 8%N)]).
Proof. cbv zeta. split; [repeat constructor|]. split; [cbn; repeat split; discriminate|]. split; [vm_compute; reflexivity|]. split; vm_compute; reflexivity. Qed.

(* ---- label lists ---- *)
(* the claim *)
Definition list_matches (q : label_query) (l : list value) : Prop :=
  match q with HasAll ls => forall v, In v ls -> In v l | HasAny ls => exists v, In v ls /\ In v l end.
Definition labels (q : label_query) : list value := match q with HasAll l | HasAny l => l end.
Lemma unnest_In : forall rows v id, In (v, id) (unnest rows) <-> exists l, In (Some l, id) rows /\ In v l.
Proof.
  intros rows v id. unfold unnest. rewrite in_flat_map. split.
  - intros [[o i] [J K]]. apply in_map_iff in K as [w [E K]]. injection E as -> <-. cbn in *. destruct o as [l|]; [|destruct K]. eauto.
  - intros [l [J K]]. exists (Some l, id). split; [exact J|]. apply in_map_iff. exists v. auto.
Qed.
Theorem ll_search_spec : forall rows q, Forall (fun r : lrow => (snd r < two64)%N) rows -> NoDup (map snd rows) -> labels q <> [] ->
  exists s, ll_search (ll_train rows) q = Some s /\
    forall id, (id < two64)%N -> (t_contains id s = true <-> exists l, In (Some l, id) rows /\ list_matches q l).
Proof.
  intros rows q IDS ND NE.
  assert (IDU : ids_ok (unnest rows)).
  { apply Forall_forall. intros [v i] J. apply unnest_In in J as [l [J _]]. rewrite Forall_forall in IDS. apply (IDS _ J). }
  pose proof (train_indexes _ IDU) as IX. fold (ll_train rows) in IX.
  set (look := fun v => match bi_search (ll_train rows) (QEq v) with Some m => m | None => [] end).
  assert (LK : forall v, t_wf (look v) /\ part_only (look v) /\ forall id, (id < two64)%N -> (t_contains id (look v) = true <-> exists l, In (Some l, id) rows /\ In v l)).
  { intros v. destruct (index_at _ _ v IX) as [W [P E]]. cbn [bi_search] in look. unfold look, at_key in *. split; [exact W|]. split; [exact P|]. intros id Hid. rewrite (E id Hid). apply unnest_In. }
  assert (UNI : forall l l' id, In (Some l, id) rows -> In (Some l', id) rows -> l = l').
  { clear -ND. induction rows as [|[o i] rows IH]; intros l l' id J K; [destruct J|]. cbn in ND. inversion ND as [|? ? N1 N2]; subst. destruct J as [J|J], K as [K|K].
    - congruence.
    - injection J as -> ->. exfalso. apply N1. apply in_map_iff. exists (Some l', id). auto.
    - injection K as -> ->. exfalso. apply N1. apply in_map_iff. exists (Some l, id). auto.
    - eapply IH; eauto. }
  destruct q as [ls|ls]; cbn [labels] in NE; destruct ls as [|v vs]; try congruence; cbn [ll_search]; fold (look v).
  - eexists. split; [reflexivity|]. change (fun acc w => t_and acc match bi_search (ll_train rows) (QEq w) with Some m => m | None => [] end) with (fun acc w => t_and acc (look w)).
    assert (G : forall vs acc, t_wf acc -> let s := fold_left (fun acc w => t_and acc (look w)) vs acc in t_wf s /\ forall id, (id < two64)%N -> (t_contains id s = true <-> t_contains id acc = true /\ forall w, In w vs -> exists l, In (Some l, id) rows /\ In w l)).
    { clear vs NE. induction vs as [|w vs IH]; intros acc W; cbn [fold_left].
      - split; [exact W|]. intros id _. split; [intros H; split; [exact H|intros w []]|tauto].
      - destruct (LK w) as [Ww [Pw Ew]]. destruct (IH (t_and acc (look w)) (and_wf _ _ W Ww)) as [I1 I2]. split; [exact I1|]. intros id Hid. rewrite (I2 id Hid), and_spec by exact (proj1 W). rewrite andb_true_iff, (Ew id Hid). split.
        + intros [[A B] C]. split; [exact A|]. intros u [<-|U]; auto.
        + intros [A B]. split; [split; [exact A|apply B; left; reflexivity]|]. intros u U. apply B. right. exact U. }
    destruct (LK v) as [Wv [_ Ev]]. destruct (G vs (look v) Wv) as [_ E]. intros id Hid. rewrite (E id Hid), (Ev id Hid). cbn [list_matches]. split.
    + intros [[l [J K]] A]. exists l. split; [exact J|]. intros u [<-|U]; [exact K|]. destruct (A u U) as [l' [J' K']]. rewrite (UNI l l' id J J'). exact K'.
    + intros [l [J A]]. split; [exists l; split; [exact J|apply A; left; reflexivity]|]. intros u U. exists l. split; [exact J|apply A; right; exact U].
  - eexists. split; [reflexivity|]. change (fun acc w => t_or acc match bi_search (ll_train rows) (QEq w) with Some m => m | None => [] end) with (fun acc w => t_or acc (look w)).
    assert (G : forall vs acc, t_wf acc -> let s := fold_left (fun acc w => t_or acc (look w)) vs acc in t_wf s /\ forall id, (id < two64)%N -> (t_contains id s = true <-> t_contains id acc = true \/ exists w, In w vs /\ exists l, In (Some l, id) rows /\ In w l)).
    { clear vs NE. induction vs as [|w vs IH]; intros acc W; cbn [fold_left].
      - split; [exact W|]. intros id _. split; [auto|intros [H|[w [[] _]]]; exact H].
      - destruct (LK w) as [Ww [Pw Ew]]. destruct (IH (t_or acc (look w)) (or_wf _ _ W Ww)) as [I1 I2]. split; [exact I1|]. intros id Hid. rewrite (I2 id Hid), or_contains by (try exact Pw; exact (proj1 Ww)). rewrite orb_true_iff, (Ew id Hid). split.
        + intros [[A|A]|[u [U R]]]; [auto|right; exists w; split; [left; reflexivity|exact A]|right; exists u; split; [right; exact U|exact R]].
        + intros [A|[u [[<-|U] R]]]; [auto|auto|right; exists u; auto]. }
    destruct (LK v) as [Wv [_ Ev]]. destruct (G vs (look v) Wv) as [_ E]. intros id Hid. rewrite (E id Hid), (Ev id Hid). cbn [list_matches In]. split.
    + intros [[l [J K]]|[w [U [l [J K]]]]]; exists l; split; auto; [exists v|exists w]; auto.
    + intros [l [J [w [[<-|U] K]]]]; [left; eauto|right; eauto].
Qed.
(* array_has_any(x, []) is false and array_has_all(x, []) true on every list; the index panics *)
Theorem ll_empty_refuted : forall rows q, labels q = [] -> ll_search (ll_train rows) q = None.
Proof. intros rows [l|l] E; cbn in E; subst l; reflexivity. Qed.
Example label_example : let rows := [(Some [Some 1%Z; Some 2%Z; Some 1%Z], 0%N); (None, 1%N); (Some [], 2%N); (Some [Some 2%Z], 7%N)] in
  Forall (fun r : lrow => (snd r < two64)%N) rows /\ NoDup (map snd rows) /\
  omap t_row_ids (ll_search (ll_train rows) (HasAll [Some 1%Z; Some 2%Z])) = Some (Some [0]%N) /\
  omap t_row_ids (ll_search (ll_train rows) (HasAny [Some 1%Z; Some 2%Z])) = Some (Some [0; 7]%N).
Proof. cbv zeta. split; [repeat constructor|]. split; [repeat constructor; cbn; intuition discriminate|]. split; vm_compute; reflexivity. Qed.

(* ---- remapping a bitmap index ---- *)
(* what the remapped index describes: mapped rows with a value, under their new ids *)
Definition kept_rows (m : mapping) (rows : list vrow) : list vrow :=
  flat_map (fun r => match fst r, m (snd r) with Some _, Some (Some n) => [(fst r, n)] | _, _ => [] end) rows.
Definition mapping_ok (m : mapping) : Prop := forall i n, m i = Some (Some n) -> (n < two64)%N.
Lemma part_row_ids : forall m, t_wf m -> part_only m -> exists ids, t_row_ids m = Some ids.
Proof.
  intros m W H. destruct (t_row_ids m) eqn:E; [eauto|]. exfalso. apply row_ids_none in E as [f J]. apply (H f). apply In_get; [exact (proj1 W)|exact J].
Qed.
Lemma row_ids_lt : forall m ids, t_wf m -> t_row_ids m = Some ids -> Forall (fun i => (i < two64)%N) ids.
Proof.
  unfold t_row_ids. induction m as [|[k s] m IH]; intros ids W H; [cbn in H; injection H as <-; constructor|]. destruct W as [[_ W1] W2]. inversion W2 as [|? ? [Hk Hs] W3]; subst. cbn [map] in H.
  rewrite sequence_opt_cons in H. unfold row_iter at 1 in H. cbn [fst snd] in *. destruct s as [|s]; cbn [obind omap] in H; [discriminate|].
  destruct (sequence_opt (map row_iter m)) as [ys|] eqn:E; cbn in H; [|discriminate]. injection H as <-. apply Forall_app. split; [|apply IH; [split; assumption|reflexivity]].
  apply Forall_forall. intros x J. apply in_map_iff in J as [o [<- J]]. destruct Hs as [_ Hs]. rewrite Forall_forall in Hs. specialize (Hs o J). cbn in Hk. rewrite new_from_parts_add by assumption. unfold two64, two32 in *. nia.
Qed.
Lemma remap_indexes : forall m t rows, indexes t rows -> mapping_ok m -> ids_ok rows -> exists t', bi_remap m t = Some t' /\ indexes t' (kept_rows m rows).
Proof.
  intros m t rows [S [A [_ [_ [B _]]]]] OK IDS. unfold bi_remap.
  set (conv := fun ids => t_from_iter (flat_map (fun a => match m a with Some (Some n) => [n] | _ => [] end) ids)).
  set (g := fun mp : tmap => match t_row_ids mp with Some ids => conv ids | None => [] end).
  rewrite (sequence_some _ (fun p => (fst p, g (snd p)))).
  2:{ intros [k mp] J. destruct (A k mp J) as [_ [W P]]. destruct (part_row_ids mp W P) as [ids E]. unfold g. cbn [fst snd]. rewrite E. reflexivity. }
  cbn [omap]. eexists. split; [reflexivity|]. apply load_indexes.
  assert (GO : forall k mp, In (k, mp) (bi_map t) -> t_wf (g mp) /\ part_only (g mp) /\ forall id, (id < two64)%N -> (t_contains id (g mp) = true <-> exists a, (a < two64)%N /\ t_contains a mp = true /\ m a = Some (Some id))).
  { intros k mp J. destruct (A k mp J) as [_ [W P]]. destruct (part_row_ids mp W P) as [ids E]. unfold g. rewrite E. unfold conv, t_from_iter. split; [apply from_iter_wf; apply nil_wf|]. split; [apply extend_part; apply part_nil|].
    intros id Hid. rewrite extend_spec; [|apply Forall_forall; intros x K; apply in_flat_map in K as [a [_ K]]; destruct (m a) as [[n|]|] eqn:Em; cbn in K; [destruct K as [<-|[]]; eapply OK; eauto|destruct K|destruct K]|exact Hid].
    cbn [t_contains get]. rewrite orb_false_r, memN_In, in_flat_map. destruct (row_ids_spec mp ids W E) as [_ [_ R]]. pose proof (row_ids_lt mp ids W E) as LT. rewrite Forall_forall in LT. split.
    - intros [a [Ia K]]. destruct (m a) as [[n|]|] eqn:Em; cbn in K; [destruct K as [<-|[]]|destruct K|destruct K]. exists a. split; [apply LT; exact Ia|]. split; [apply R; [apply LT; exact Ia|exact Ia]|exact Em].
    - intros [a [La [Ca Em]]]. exists a. split; [apply R; assumption|]. rewrite Em. left. reflexivity. }
  assert (SG : ksorted (map (fun p => (fst p, g (snd p))) (bi_map t))).
  { revert S. clear. generalize (bi_map t) as st. induction st as [|[k x] st IH]; intros S; [exact I|]. destruct S as [S1 S2]. cbn. split; [|apply IH; exact S2]. rewrite map_map. cbn. exact S1. }
  split; [exact SG|]. split.
  - intros k x J. apply in_map_iff in J as [[k0 mp] [E J]]. cbn in E. injection E as <- <-. destruct (GO k0 mp J) as [W [P _]]. auto.
  - intros k id Hid. unfold at_key.
    assert (VG : vget k (map (fun p => (fst p, g (snd p))) (bi_map t)) = omap g (vget k (bi_map t))).
    { clear. induction (bi_map t) as [|[k0 x] st IH]; [reflexivity|]. cbn. destruct (veq k k0); [reflexivity|exact IH]. }
    rewrite VG. unfold kept_rows. rewrite in_flat_map. destruct (vget k (bi_map t)) as [mp|] eqn:E; cbn [omap].
    + pose proof (vget_In _ _ _ E) as J. destruct (A k mp J) as [Nk _]. destruct (GO k mp J) as [_ [_ R]]. rewrite (R id Hid). split.
      * intros [a [La [Ca Em]]]. exists (k, a). cbn [fst snd]. rewrite Em. destruct k as [k|]; [|congruence]. split; [|left; reflexivity]. apply (B (Some k) a La Nk). unfold at_key. rewrite E. exact Ca.
      * intros [[v a] [Ja K]]. cbn [fst snd] in K. destruct v as [v|]; [|destruct K]. destruct (m a) as [[n|]|] eqn:Em; cbn in K; [destruct K as [K|[]]|destruct K|destruct K]. injection K as <- <-. exists a.
        assert (La : (a < two64)%N) by (unfold ids_ok in IDS; rewrite Forall_forall in IDS; apply (IDS _ Ja)). split; [exact La|]. split; [|exact Em]. apply (B (Some v) a La Nk) in Ja. unfold at_key in Ja. rewrite E in Ja. exact Ja.
    + split; [discriminate|]. intros [[v a] [Ja K]]. cbn [fst snd] in K. destruct v as [v|]; [|destruct K]. destruct (m a) as [[n|]|] eqn:Em; cbn in K; [destruct K as [K|[]]|destruct K|destruct K]. injection K as <- <-.
      assert (La : (a < two64)%N) by (unfold ids_ok in IDS; rewrite Forall_forall in IDS; apply (IDS _ Ja)). apply (B (Some v) a La) in Ja; [|discriminate]. unfold at_key in Ja. rewrite E in Ja. exact Ja.
Qed.
Theorem bi_remap_exact : forall m rows q, ids_ok rows -> mapping_ok m -> bitmap_query_ok q ->
  exists t s, bi_remap m (bi_train rows) = Some t /\ bi_search t q = Some s /\ answers s (kept_rows m rows) q.
Proof.
  intros m rows q IDS OK Q. destruct (remap_indexes m _ _ (train_indexes rows IDS) OK IDS) as [t [E H]]. destruct (bi_search_indexes t _ q H Q) as [s [Es A]]. exists t, s. auto.
Qed.
(* with no nulls and every row mentioned in the mapping it is the claim *)
Theorem bi_remap_total : forall m rows q, ids_ok rows -> mapping_ok m -> bitmap_query_ok q ->
  (forall v i, In (v, i) rows -> v <> None /\ m i <> None) ->
  exists t s, bi_remap m (bi_train rows) = Some t /\ bi_search t q = Some s /\ answers s (remap_batch m rows) q.
Proof.
  intros m rows q IDS OK Q H. replace (remap_batch m rows) with (kept_rows m rows); [apply bi_remap_exact; assumption|]. clear -H. unfold kept_rows, remap_batch. induction rows as [|[v i] rows IH]; [reflexivity|]. cbn [flat_map fst snd].
  destruct (H v i (or_introl eq_refl)) as [N1 N2]. rewrite IH by (intros; apply H; right; assumption). f_equal. destruct v; [|congruence]. destruct (m i) as [[n|]|]; congruence.
Qed.
(* the claim of C60 for any index contents: rows outside the mapping keep their id *)
Definition remap_claim (search_after : mapping -> list vrow -> query -> option tmap) : Prop :=
  forall m rows q, ids_ok rows -> mapping_ok m -> bitmap_query_ok q -> exists s, search_after m rows q = Some s /\ answers s (remap_batch m rows) q.
Theorem bi_remap_unmapped_refuted : ~ remap_claim (fun m rows q => obind (bi_remap m (bi_train rows)) (fun t => bi_search t q)).
Proof.
  intros H. destruct (H (fun i => if (i =? 0)%N then Some (Some 9%N) else None) [(Some 5%Z, 0%N); (Some 5%Z, 1%N)] (QEq (Some 5%Z))) as [s [E A]].
  - repeat constructor.
  - intros i n. destruct (i =? 0)%N; [|discriminate]. intros X. injection X as <-. reflexivity.
  - exact I.
  - vm_compute in E. injection E as <-. specialize (A 1%N eq_refl). destruct A as [_ A]. discriminate A. exists (Some 5%Z). split; [right; left; reflexivity|reflexivity].
Qed.
Theorem bi_remap_nulls_refuted : exists m rows, ids_ok rows /\ mapping_ok m /\ (forall v i, In (v, i) rows -> m i <> None) /\
  exists s, obind (bi_remap m (bi_train rows)) (fun t => bi_search t QNull) = Some s /\ ~ answers s (remap_batch m rows) QNull.
Proof.
  exists (fun i => if (i <? 100)%N then Some (Some (i + 10)%N) else Some None), [(None, 0%N); (Some 5%Z, 1%N)].
  split; [repeat constructor|]. split; [intros i n; destruct (N.ltb_spec i 100); [|discriminate]; intros X; injection X as <-; unfold two64; lia|]. split; [intros v i [X|[X|[]]]; injection X as _ <-; discriminate|].
  eexists. split; [vm_compute; reflexivity|]. intros A. specialize (A 10%N eq_refl). destruct A as [_ A]. discriminate A. exists None. split; [left; reflexivity|reflexivity].
Qed.
Example bitmap_remap_example : let rows := [(Some 5%Z, 1%N); (Some 9%Z, 3%N); (Some 5%Z, 4%N)] in
  let m := fun i => if (i =? 3)%N then Some None else if (i <? 100)%N then Some (Some (i + 4294967296)%N) else Some None in
  ids_ok rows /\ mapping_ok m /\ (forall v i, In (v, i) rows -> v <> None /\ m i <> None) /\
  omap t_row_ids (obind (bi_remap m (bi_train rows)) (fun t => bi_search t (QRange (VInc (Some 0%Z)) VUnb))) = Some (Some [4294967297; 4294967300]%N).
Proof.
  cbv zeta. split; [repeat constructor|]. split; [intros i n; destruct (i =? 3)%N; [discriminate|]; destruct (N.ltb_spec i 100); [|discriminate]; intros X; injection X as <-; unfold two64; lia|].
  split; [intros v i [X|[X|[X|[]]]]; injection X as <- <-; split; discriminate|]. vm_compute. reflexivity.
Qed.
