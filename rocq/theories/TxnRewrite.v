(* C51: a rewrite keeps the table's rows. *)
From Coq Require Import List Arith NArith ZArith Bool Lia Permutation.
From Coq Require Import ZifyBool ZifyN ZifyNat.
From Verif Require Import Lib AMap TreeMapModel SerdeModel TxnModel TxnSpec TxnLemmas TxnIdsProofs TxnFrame TxnRowIds.
Import ListNotations.
Local Open Scope N_scope.

Lemma NoDup_pairs : forall {R} (rows : fragment -> R) l, NoDup (map f_id l) -> NoDup (map (fun f => (f_id f, rows f)) l).
Proof.
  intros R rows. induction l as [|f t IH]; intros H; [constructor|]. inversion H; subst. cbn [map]. constructor; auto.
  intros C. apply in_map_iff in C as [g [E C]]. injection E as E1 E2. apply H2. rewrite <- E1. now apply in_map.
Qed.
Lemma same_by_id : forall {R} (rows : fragment -> list R) a b, NoDup (map f_id a) -> NoDup (map f_id b) ->
  (forall y, In y b -> exists x, In x a /\ f_id x = f_id y /\ rows x = rows y) -> (forall x, In x a -> In (f_id x) (map f_id b)) ->
  Permutation (flat_map rows a) (flat_map rows b).
Proof.
  intros R rows a b Ha Hb H1 H2.
  assert (P : Permutation (map (fun f => (f_id f, rows f)) a) (map (fun f => (f_id f, rows f)) b)).
  { apply NoDup_Permutation; try now apply NoDup_pairs. intros [i r]. rewrite !in_map_iff. split.
    - intros [x [E X]]. injection E as <- <-. pose proof (H2 x X) as Y. apply in_map_iff in Y as [y [Y1 Y2]]. destruct (H1 y Y2) as [x' [X1 [X2 X3]]].
      exists y. split; auto. f_equal; auto. rewrite <- X3. f_equal.
      assert (x' = x); [|now subst]. clear - Ha X X1 X2 Y1. assert (f_id x' = f_id x) by congruence. clear X2 Y1.
      induction a as [|g t IH]; [destruct X|]. inversion Ha; subst. destruct X as [->|X], X1 as [->|X1]; auto; exfalso; apply H2; [rewrite <- H|rewrite H]; now apply in_map.
    - intros [y [E Y]]. injection E as <- <-. destruct (H1 y Y) as [x [X1 [X2 X3]]]. exists x. split; auto. now rewrite X2, X3. }
  assert (F : forall l, flat_map rows l = flat_map snd (map (fun f => (f_id f, rows f)) l)) by (induction l as [|f t IH]; cbn; [auto|now rewrite IH]).
  rewrite (F a), (F b). now apply Permutation_flat_map.
Qed.
Lemma filter_split_perm : forall {A} (p : A -> bool) l, Permutation l (filter (fun x => negb (p x)) l ++ filter p l).
Proof.
  intros A p. induction l as [|x t IH]; cbn [filter]; auto. destruct (p x); cbn [negb].
  - etransitivity; [apply perm_skip, IH|]. apply Permutation_middle.
  - cbn [app]. now constructor.
Qed.
Lemma with_ids_rows : forall {R} (rows : fragment -> list R), (forall f i, rows (set_id f i) = rows f) -> forall l n, flat_map rows (fst (fragments_with_ids l n)) = flat_map rows l.
Proof.
  intros R rows Hs. induction l as [|f t IH]; intros n; auto. cbn [fragments_with_ids]. destruct (f_id f =? 0).
  - specialize (IH (n + 1)). destruct (fragments_with_ids t (n + 1)). cbn in *. now rewrite IH, Hs.
  - specialize (IH n). destruct (fragments_with_ids t n). cbn in *. now rewrite IH.
Qed.

Lemma groups_rows : forall {R} (rows : fragment -> list R) gs, (forall g, In g gs -> Permutation (flat_map rows (rg_new g)) (flat_map rows (rg_old g))) ->
  Permutation (flat_map rows (flat_map rg_new gs)) (flat_map rows (flat_map rg_old gs)).
Proof.
  intros R rows. induction gs as [|g t IH]; intros H; cbn [flat_map]; auto. rewrite !flat_map_app. apply Permutation_app.
  - apply H. now left.
  - apply IH. intros g' Hg. apply H. now right.
Qed.

(* the rows after an accepted rewrite; [rows] is any notion of a fragment's live
   rows that does not depend on its id or on which columns it has *)
Lemma rewrite_rows_core : forall {R} (rows : fragment -> list R) h e m gs rw,
  (forall f i, rows (set_id f i) = rows f) -> 
  good (h ++ [e]) -> t_op (e_txn e) = Rewrite gs rw -> latest h = Some m ->
  NoDup (map f_id (flat_map rg_old gs)) ->
  (forall x, In x (flat_map rg_old gs) -> exists f, In f (m_fragments m) /\ f_id f = f_id x /\ rows f = rows x) ->
  (forall g, In g gs -> Permutation (flat_map rows (rg_new g)) (flat_map rows (rg_old g))) ->
  Permutation (flat_map rows (m_fragments (e_man e))) (flat_map rows (m_fragments m)) /\
  (forall f, In f (m_fragments m) -> ~ In (f_id f) (map f_id (flat_map rg_old gs)) -> In f (m_fragments (e_man e))).
Proof.
  intros R rows h e m gs rw Rid G Eo L Hnd Hold Hrows. pose proof (history_wf _ (good_prefix _ _ G)) as W.
  pose proof (op_honest h e m G W L) as OH. rewrite Eo in OH. destruct OH as [L1 L2].
  destruct (latest_last _ _ L) as [le [El2 <-]]. pose proof (W le (last_In _ _ El2)) as W1.
  split.
  - destruct G as [Gh _]. apply history_snoc in Gh as [_ [_ [_ [file G]]]].
    apply commit_inv in G as [[v [le' [old [E1 _]]]]|[m0 [E1 [E2 E3]]]]; [congruence|].
    apply build_inv in E1 as [sch [nr [fs [nr' [_ [_ [B3 [B4 _]]]]]]]]. apply finish_inv in E2 as [F1 _]. rewrite F1, B4. rewrite L, Eo in B3. cbn [apply_op] in B3.
    apply bbind_ok in B3 as [[fs2 nx] [H1 H2]]. apply bbind_ok in H2 as [ix2 [_ H3]]. injection H3 as <- _ _.
    etransitivity; [apply Permutation_flat_map, sort_frags_perm|].
    destruct (next_id_above (Rewrite gs rw) (e_man le) W1 eq_refl) as [X1 [X2 _]].
    assert (ND : NoDup (map f_id (m_fragments (e_man le)))) by apply sinc_NoDup, W1.
    pose proof (rewrite_loop_perm gs (m_fragments (e_man le)) _ _ _ H1 ND) as P.
    etransitivity; [apply Permutation_flat_map, P|].
    + intros f Hf. apply X1. now apply in_map.
    + exact L1.
    + intros i Hi. split; [apply X2; [now apply explicit_In in Hi|now apply L2]|now apply L2].
    + intros i Hi. unfold old_ids in Hi. apply in_map_iff in Hi as [x [<- Hx]]. destruct (Hold x Hx) as [f [K1 [K2 K3]]]. rewrite <- K2. split.
      * apply X1. now apply in_map.
      * intros C. apply (proj1 (L2 _ C)). now apply in_map.
    + rewrite flat_map_app, with_ids_rows by auto. etransitivity; [|apply Permutation_flat_map, Permutation_sym, (filter_split_perm (fun f => memN (f_id f) (old_ids gs)))].
      rewrite flat_map_app. apply Permutation_app_head. etransitivity; [apply groups_rows, Hrows|]. apply Permutation_sym. apply same_by_id; auto.
      * now apply NoDup_filter_ids.
      * intros y Hy. destruct (Hold y Hy) as [f [K1 [K2 K3]]]. exists f. split; auto. apply filter_In. split; auto. apply memN_In. rewrite K2. unfold old_ids. now apply in_map.
      * intros x Hx. apply filter_In in Hx as [_ Hx]. now apply memN_In in Hx.
  - intros f Hf Hn. destruct G as [Gh _]. apply history_snoc in Gh as [_ [_ [_ [file G]]]].
    destruct (commit_frame _ _ _ _ _ _ (e_man le) f G) as [s Hs]; auto; rewrite ?Eo; [exact I| |].
    + cbn. intros [g [o [A1 [A2 A3]]]]. apply Hn. rewrite <- A3. apply in_map. apply in_flat_map. eauto.
    + rewrite Eo in Hs. exact Hs.
Qed.
Lemma rewrite_keeps_rows : forall {R} (rows : fragment -> list R) h e m gs rw,
  (forall f i, rows (set_id f i) = rows f) -> (forall a b, same_rows a b -> rows a = rows b) ->
  good (h ++ [e]) -> t_op (e_txn e) = Rewrite gs rw -> latest h = Some m ->
  NoDup (map f_id (flat_map rg_old gs)) ->
  (forall g o, In g gs -> In o (rg_old g) -> exists mr, man_at h (t_read (e_txn e)) = Some mr /\ In o (m_fragments mr)) ->
  (forall g, In g gs -> Permutation (flat_map rows (rg_new g)) (flat_map rows (rg_old g))) ->
  Permutation (flat_map rows (m_fragments (e_man e))) (flat_map rows (m_fragments m)) /\
  (forall f, In f (m_fragments m) -> ~ In (f_id f) (map f_id (flat_map rg_old gs)) -> In f (m_fragments (e_man e))).
Proof.
  intros R rows h e m gs rw Rid Rsame G Eo L Hnd Hread Hrows. apply (rewrite_rows_core rows h e m gs rw); auto.
  intros x Hx. apply in_flat_map in Hx as [g [G1 G2]]. destruct (Hread g x G1 G2) as [mr [M1 M2]].
  destruct (accepted_keeps h e mr m (proj1 G)) with (f := x) as [f' [P1 [P2 _]]]; auto; rewrite ?Eo; [exact I|cbn; eauto|].
  exists f'. split; auto. split; [apply P2|]. symmetry. now apply Rsame.
Qed.

(* ---- order: each group is a run of adjacent fragments ---- *)
Definition adjacent (ids : list N) (g : rewrite_group) : Prop := rg_old g <> [] /\ exists a b, ids = a ++ map f_id (rg_old g) ++ b.
Lemma adjacent_apart : forall (a X b a' Y b' : list N), a ++ X ++ b = a' ++ Y ++ b' -> X <> [] -> (forall x, In x X -> ~ In x Y) ->
  (exists c, a = a' ++ Y ++ c /\ b' = c ++ X ++ b) \/ (exists c, a' = a ++ X ++ c /\ b = c ++ Y ++ b') \/ Y = [].
Proof.
  intros a X b a' Y b' E HX HD. apply app_eq_app in E as [l [[E1 E2]|[E1 E2]]].
  - apply app_eq_app in E2 as [l2 [[E3 E4]|[E3 E4]]].
    + destruct l2 as [|y l2].
      * left. exists []. cbn [app] in *. rewrite app_nil_r in *. subst. auto.
      * exfalso. destruct X as [|x X]; [congruence|]. cbn in E4. injection E4 as -> _. apply (HD y); [now left|]. rewrite E3. apply in_app_iff. right. now left.
    + left. exists l2. subst. auto.
  - apply app_eq_app in E2 as [l2 [[E3 E4]|[E3 E4]]].
    + destruct l2 as [|y l2].
      * right. left. exists []. cbn [app] in *. rewrite app_nil_r in *. subst. auto.
      * destruct Y as [|z Y]; [auto|]. exfalso. cbn in E4. injection E4 as -> _. apply (HD y); [rewrite E3; apply in_app_iff; right|]; now left.
    + right. left. exists l2. subst. auto.
Qed.
Lemma map_app_inv : forall {A B} (f : A -> B) l a b, map f l = a ++ b -> exists la lb, l = la ++ lb /\ map f la = a /\ map f lb = b.
Proof.
  intros A B f l a. revert l. induction a as [|x a IH]; intros l b H; [exists [], l; auto|]. destruct l as [|y l]; [discriminate|]. cbn in H. injection H as H1 H2.
  destruct (IH l b H2) as [la [lb [E1 [E2 E3]]]]. exists (y :: la), lb. subst. auto.
Qed.
Lemma position_at : forall fs a o b, fs = a ++ o :: b -> NoDup (map f_id fs) -> forall i, i = f_id o -> position (fun f => f_id f =? i) fs = Some (length a).
Proof.
  intros fs a o b -> Hn i ->. induction a as [|x a IH]; cbn [app position length].
  - now rewrite N.eqb_refl.
  - cbn [app map] in Hn. inversion Hn; subst. destruct (f_id x =? f_id o) eqn:E.
    + exfalso. apply H1. assert (f_id x = f_id o) as -> by lia. rewrite map_app. apply in_app_iff. right. now left.
    + rewrite IH by auto. reflexivity.
Qed.
Lemma contiguous_true : forall old fs r, map f_id fs = map f_id old -> contiguous (fs ++ r) old = Some true.
Proof.
  induction old as [|o t IH]; intros fs r H; destruct fs as [|f fs]; try discriminate; [destruct r; reflexivity|]. cbn in H. injection H as H1 H2.
  cbn [app contiguous]. rewrite H1, N.eqb_refl. auto.
Qed.

Lemma splice_rows : forall {R} (rows : fragment -> list R), (forall f i, rows (set_id f i) = rows f) ->
  forall groups fs next, NoDup (map f_id fs) -> (forall f, In f fs -> f_id f < next) ->
  NoDup (explicit_ids (flat_map rg_new groups)) ->
  (forall i, In i (explicit_ids (flat_map rg_new groups)) -> i < next /\ ~ In i (map f_id fs)) ->
  NoDup (map f_id (flat_map rg_old groups)) -> (forall g, In g groups -> adjacent (map f_id fs) g) ->
  (forall x, In x (flat_map rg_old groups) -> exists f, In f fs /\ f_id f = f_id x /\ rows f = rows x) ->
  (forall g, In g groups -> flat_map rows (rg_new g) = flat_map rows (rg_old g)) ->
  exists fs' next', handle_rewrite_fragments fs groups next = BOk (fs', next') /\ flat_map rows fs' = flat_map rows fs.
Proof.
  intros R rows Rid. induction groups as [|g t IH]; intros fs next Hn Hl He Hx Ho Ha Hold Hg; cbn [handle_rewrite_fragments]; [eauto|].
  destruct (Ha g (or_introl eq_refl)) as [Hne [a [b Hab]]]. destruct (rg_old g) as [|o0 olds] eqn:Eo; [congruence|]. clear Hne.
  destruct (map_app_inv _ _ _ _ Hab) as [fa [fr [E1 [Ea Er]]]]. destruct (map_app_inv _ _ _ _ Er) as [run [fb [E2 [Erun Eb]]]]. subst fr.
  destruct run as [|r0 run]; [discriminate|]. cbn [map] in Erun. injection Erun as Er0 Erun.
  rewrite (position_at fs fa r0 (run ++ fb)); auto.
  assert (Es : skipn (S (length fa)) fs = run ++ fb).
  { rewrite E1. change (fa ++ (r0 :: run) ++ fb) with (fa ++ [r0] ++ (run ++ fb)). rewrite app_assoc.
    rewrite skipn_app. replace (S (length fa)) with (length (fa ++ [r0])) by (rewrite app_length; cbn; lia). rewrite skipn_all, Nat.sub_diag. reflexivity. }
  rewrite Es, (contiguous_true olds run fb Erun).
  cbn [flat_map] in He, Hx, Ho, Hold. rewrite explicit_app in He, Hx. apply NoDup_app_iff' in He as [He1 [He2 He3]]. rewrite map_app in Ho. rewrite Eo in Ho, Hold. apply NoDup_app_iff' in Ho as [Ho1 [Ho2 Ho3]].
  pose proof (with_ids_next (rg_new g) next) as Hnx. pose proof (with_ids_In (rg_new g) next) as Hin.
  pose proof (with_ids_NoDup (rg_new g) next He1 (fun i Hi => proj1 (Hx i (proj2 (in_app_iff _ _ _) (or_introl Hi))))) as Hnd.
  pose proof (with_ids_rows rows Rid (rg_new g) next) as Hnr.
  destruct (fragments_with_ids (rg_new g) next) as [new nx] eqn:Ew. cbn [fst snd] in *.
  assert (Ef : firstn (length fa) fs = fa) by (rewrite E1, firstn_app, Nat.sub_diag, firstn_all; cbn; apply app_nil_r).
  assert (Ek : skipn (length fa + length (o0 :: olds)) fs = fb).
  { rewrite E1, app_assoc, skipn_app. replace (length fa + length (o0 :: olds))%nat with (length (fa ++ r0 :: run)).
    - rewrite skipn_all, Nat.sub_diag. reflexivity.
    - rewrite app_length. cbn [length]. rewrite <- (map_length f_id run), Erun, map_length. reflexivity. }
  rewrite Ef, Ek.
  assert (Hnew : forall i, In i (map f_id new) -> In i (explicit_ids (rg_new g)) \/ next <= i < nx).
  { intros i Hi. apply in_map_iff in Hi as [x [<- Hi]]. destruct (Hin x Hi) as [f [Hf [[C1 C2]|[C1 [j [C2 C3]]]]]]; subst x.
    - left. apply explicit_In. eauto.
    - right. cbn. lia. }
  assert (Hdisj : forall i, In i (map f_id fs) -> In i (map f_id new) -> False).
  { intros i H1 H2. destruct (Hnew i H2) as [C|C].
    - apply (proj2 (Hx i (proj2 (in_app_iff _ _ _) (or_introl C))) H1).
    - apply in_map_iff in H1 as [f [<- H1]]. specialize (Hl f H1). lia. }
  assert (Hsub : forall f, In f (fa ++ new ++ fb) -> In f fs \/ In f new).
  { intros f Hf. rewrite E1. apply in_app_iff in Hf as [Hf|Hf]; [left; apply in_app_iff; auto|]. apply in_app_iff in Hf as [Hf|Hf]; auto.
    left. apply in_app_iff. right. apply in_app_iff. auto. }
  assert (Holdrow : flat_map rows (r0 :: run) = flat_map rows (rg_new g)).
  { rewrite (Hg g (or_introl eq_refl)), Eo.
    assert (X : forall xs ys, map f_id xs = map f_id ys -> (forall f, In f xs -> In f fs) -> (forall x, In x ys -> exists f, In f fs /\ f_id f = f_id x /\ rows f = rows x) -> flat_map rows xs = flat_map rows ys).
    { clear - Hn. induction xs as [|x xs IH]; intros [|y ys] E H1 H2; try discriminate; auto. cbn in E. injection E as E3 E4. cbn [flat_map].
      rewrite (IH ys E4); [|intros f Hf; apply H1; now right|intros f Hf; apply H2; now right]. f_equal.
      destruct (H2 y (or_introl eq_refl)) as [f [F1 [F2 F3]]]. rewrite <- F3. f_equal. pose proof (H1 x (or_introl eq_refl)) as X.
      assert (Some x = Some f) as Y; [|congruence]. rewrite <- (find_self fs x Hn X), <- (find_self fs f Hn F1). congruence. }
    apply X.
    - cbn [map]. now rewrite Er0, Erun.
    - intros f Hf. rewrite E1. apply in_app_iff. right. apply in_app_iff. now left.
    - intros x Hxx. apply Hold. apply in_app_iff. now left. }
  destruct (IH (fa ++ new ++ fb) nx) as [fs' [nx' [H1 H2]]].
  - rewrite !map_app. rewrite E1, !map_app in Hn. apply NoDup_app_iff' in Hn as [N1 [N2 N3]]. apply NoDup_app_iff' in N2 as [N4 [N5 N6]].
    apply NoDup_app_iff'. split; auto. split; [apply NoDup_app_iff'; split; auto; split; auto|].
    + intros i A1 A2. apply (Hdisj i); auto. rewrite E1, !map_app. apply in_app_iff. right. apply in_app_iff. now right.
    + intros i A1 A2. apply in_app_iff in A2 as [A2|A2].
      * apply (Hdisj i); auto. rewrite E1, map_app. apply in_app_iff. now left.
      * apply (N3 i); auto. apply in_app_iff. now right.
  - intros f Hf. destruct (Hsub f Hf) as [C|C]; [specialize (Hl f C); lia|]. destruct (Hnew _ (in_map f_id _ _ C)) as [C2|C2]; [|lia].
    destruct (Hx (f_id f) (proj2 (in_app_iff _ _ _) (or_introl C2))). lia.
  - exact He2.
  - intros i Hi. destruct (Hx i (proj2 (in_app_iff _ _ _) (or_intror Hi))) as [X1 X2]. split; [lia|]. intros C. apply in_map_iff in C as [f [<- C]].
    destruct (Hsub f C) as [C2|C2]; [apply X2; now apply in_map|]. destruct (Hnew _ (in_map f_id _ _ C2)) as [C3|C3]; [eauto|lia].
  - exact Ho2.
  - intros g' Hg'. destruct (Ha g' (or_intror Hg')) as [Hne [a' [b' Hab']]]. split; auto.
    assert (Hdj : forall x, In x (map f_id (o0 :: olds)) -> ~ In x (map f_id (rg_old g'))).
    { intros x A1 A2. apply (Ho3 x A1). apply in_map_iff in A2 as [y [<- A2]]. apply in_map. apply in_flat_map. eauto. }
    rewrite Hab in Hab'. rewrite !map_app, Ea, Eb.
    destruct (adjacent_apart _ _ _ _ _ _ Hab') as [[c [C1 C2]]|[[c [C1 C2]]|C]]; auto; [discriminate| | |].
    + exists a', (c ++ map f_id new ++ b). rewrite C1. now rewrite <- !app_assoc.
    + exists (a ++ map f_id new ++ c), b'. rewrite C2. now rewrite <- !app_assoc.
    + destruct (rg_old g'); [congruence|discriminate].
  - intros x Hxx. destruct (Hold x (proj2 (in_app_iff _ _ _) (or_intror Hxx))) as [f [F1 [F2 F3]]]. exists f. split; auto.
    rewrite E1 in F1. apply in_app_iff in F1 as [F1|F1]; [apply in_app_iff; auto|]. apply in_app_iff in F1 as [F1|F1].
    + exfalso. apply (Ho3 (f_id x)); [|now apply in_map]. rewrite <- F2. replace (map f_id (o0 :: olds)) with (map f_id (r0 :: run)) by (cbn; now rewrite Er0, Erun). now apply in_map.
    + apply in_app_iff. right. apply in_app_iff. now right.
  - intros g' Hg'. apply Hg. now right.
  - exists fs', nx'. split; auto. rewrite H2. rewrite E1. rewrite !flat_map_app. now rewrite Hnr, <- Holdrow.
Qed.

(* the order of the committed version is the spliced order whenever the new
   fragments' ids keep the list sorted *)
Lemma rewrite_keeps_order : forall {R} (rows : fragment -> list R) h e m gs rw,
  (forall f i, rows (set_id f i) = rows f) -> (forall a b, same_rows a b -> rows a = rows b) ->
  good (h ++ [e]) -> t_op (e_txn e) = Rewrite gs rw -> latest h = Some m ->
  NoDup (map f_id (flat_map rg_old gs)) -> (forall g, In g gs -> adjacent (frag_ids m) g) ->
  (forall g o, In g gs -> In o (rg_old g) -> exists mr, man_at h (t_read (e_txn e)) = Some mr /\ In o (m_fragments mr)) ->
  (forall g, In g gs -> flat_map rows (rg_new g) = flat_map rows (rg_old g)) ->
  exists l, flat_map rows l = flat_map rows (m_fragments m) /\ m_fragments (e_man e) = sort_frags l /\
            (nondec_ids l -> flat_map rows (m_fragments (e_man e)) = flat_map rows (m_fragments m)).
Proof.
  intros R rows h e m gs rw Rid Rsame G Eo L Hnd Hadj Hread Hrows. pose proof (history_wf _ (good_prefix _ _ G)) as W.
  pose proof (op_honest h e m G W L) as OH. rewrite Eo in OH. destruct OH as [L1 L2].
  destruct (latest_last _ _ L) as [le [El2 <-]]. pose proof (W le (last_In _ _ El2)) as W1.
  assert (Hold : forall x, In x (flat_map rg_old gs) -> exists f, In f (m_fragments (e_man le)) /\ f_id f = f_id x /\ rows f = rows x).
  { intros x Hx. apply in_flat_map in Hx as [g [G1 G2]]. destruct (Hread g x G1 G2) as [mr [M1 M2]].
    destruct (accepted_keeps h e mr (e_man le) (proj1 G)) with (f := x) as [f' [P1 [P2 _]]]; auto; rewrite ?Eo; [exact I|cbn; eauto|].
    exists f'. split; auto. split; [apply P2|]. symmetry. now apply Rsame. }
  destruct G as [Gh _]. apply history_snoc in Gh as [_ [_ [_ [file G]]]].
  apply commit_inv in G as [[v [le' [old [E1 _]]]]|[m0 [E1 [E2 E3]]]]; [congruence|].
  apply build_inv in E1 as [sch [nr [fs [nr' [_ [_ [B3 [B4 _]]]]]]]]. apply finish_inv in E2 as [F1 _]. rewrite F1, B4. rewrite L, Eo in B3. cbn [apply_op] in B3.
  apply bbind_ok in B3 as [[fs2 nx] [H1 H2]]. apply bbind_ok in H2 as [ix2 [_ H3]]. injection H3 as <- _ _.
  destruct (next_id_above (Rewrite gs rw) (e_man le) W1 eq_refl) as [X1 [X2 _]].
  assert (ND : NoDup (map f_id (m_fragments (e_man le)))) by apply sinc_NoDup, W1.
  destruct (splice_rows rows Rid gs (m_fragments (e_man le)) (next_id (Rewrite gs rw) (Some (e_man le)))) as [fs' [nx' [S1 S2]]]; auto.
  - intros f Hf. apply X1. now apply in_map.
  - intros i Hi. split; [apply X2; [now apply explicit_In in Hi|now apply L2]|now apply L2].
  - rewrite S1 in H1. injection H1 as -> ->. exists fs2. split; auto. split; auto. intros Hs. now rewrite sort_frags_id.
Qed.
