(* C44: indices and the fragments they claim to cover. *)
From Coq Require Import List Arith NArith ZArith Bool Lia Permutation.
From Coq Require Import ZifyBool ZifyN ZifyNat.
From Verif Require Import Lib AMap TreeMapModel SerdeModel TxnModel TxnSpec TxnLemmas TxnIdsProofs TxnFrame TxnRowIds TxnIndexSpec.
Import ListNotations.
Local Open Scope N_scope.

(* ---- where columns are read from ---- *)
Lemma find_filter : forall {A} (p q : A -> bool) l, (forall x, In x l -> p x = true -> q x = true) -> find p (filter q l) = find p l.
Proof.
  induction l as [|x t IH]; intros H; auto. cbn [filter find]. destruct (p x) eqn:E.
  - rewrite (H x) by (auto; now left). cbn [find]. now rewrite E.
  - destruct (q x); cbn [find]; rewrite ?E; apply IH; intros y Hy; apply H; now right.
Qed.
Lemma memZ_In : forall z l, memZ z l = true <-> In z l.
Proof. intros. unfold memZ. rewrite existsb_exists. split; [intros [y [H1 H2]]; assert (z = y) as -> by lia; auto|intros H; exists z; split; auto; lia]. Qed.
Lemma source_project : forall s f z, In z (field_ids s) -> source z (project_files s f) = source z f.
Proof.
  intros s f z Hz. unfold source, project_files. cbn [f_files set_files]. rewrite find_filter; auto.
  intros d _ H. apply existsb_exists in H as [y [H1 H2]]. assert (z = y) as -> by lia. apply existsb_exists. exists y. split; auto. now apply memZ_In.
Qed.
Lemma list_eqb_Z : forall a b, list_eqb Z.eqb a b = true -> a = b.
Proof. induction a as [|x t IH]; intros [|y u] H; try discriminate; auto. cbn in H. apply andb_true_iff in H as [H1 H2]. f_equal; [lia|auto]. Qed.
Lemma source_replace : forall f nf f' z, replace_one f nf = BOk f' -> ~ In z (df_fields nf) -> source z f' = source z f.
Proof.
  intros f nf f' z H Hz. unfold replace_one in H. destruct (list_eqb dfile_eqb _ _); [discriminate|]. injection H as <-. unfold source. cbn [f_files set_files].
  assert (E : forall l, match find (fun d => existsb (Z.eqb z) (df_fields d)) (replace_files l nf) with
    | Some d => Some {| pl_path := df_path d; pl_pos := index_of z (df_fields d); pl_col := nth_error (df_cols d) (index_of z (df_fields d)) |} | None => None end =
    match find (fun d => existsb (Z.eqb z) (df_fields d)) l with
    | Some d => Some {| pl_path := df_path d; pl_pos := index_of z (df_fields d); pl_col := nth_error (df_cols d) (index_of z (df_fields d)) |} | None => None end).
  { unfold replace_files. induction l as [|d t IH]; auto. cbn [map find].
    destruct (list_eqb Z.eqb (df_fields d) (df_fields nf) && (df_major d =? df_major nf) && (df_minor d =? df_minor nf)) eqn:C.
    - apply andb_true_iff in C as [C _]. apply andb_true_iff in C as [C _]. apply list_eqb_Z in C.
      assert (existsb (Z.eqb z) (df_fields d) = false) as X.
      { destruct (existsb (Z.eqb z) (df_fields d)) eqn:X; auto. exfalso. apply Hz. rewrite <- C. apply memZ_In. exact X. }
      cbn [df_fields set_path]. rewrite X. exact IH.
    - destruct (existsb (Z.eqb z) (df_fields d)); auto. }
  destruct (existsb _ (df_fields nf)).
  - apply E.
  - rewrite <- (E (f_files f)). clear E. induction (replace_files (f_files f) nf) as [|d t IH]; cbn [app find].
    + destruct (existsb (Z.eqb z) (df_fields nf)) eqn:X; auto. exfalso. apply Hz. apply memZ_In. exact X.
    + destruct (existsb (Z.eqb z) (df_fields d)); auto.
Qed.

(* ---- the same rows, at the same place for some columns, perhaps fewer of them ---- *)
Definition carry (w : world) (zs : list Z) (f f' : fragment) : Prop :=
  more_deleted w f f' /\ forall z, In z zs -> source z f' = source z f.
Lemma more_deleted_refl : forall w f, more_deleted w f f.
Proof. intros. repeat split; auto. Qed.
Lemma more_deleted_trans : forall w a b c, more_deleted w a b -> more_deleted w b c -> more_deleted w a c.
Proof. intros w a b c [A1 [A2 [A3 A4]]] [B1 [B2 [B3 B4]]]. repeat split; try congruence. auto. Qed.
Lemma same_deletions_more : forall w f f', same_deletions f f' -> more_deleted w f f'.
Proof. intros w f f' [H1 [H2 [H3 H4]]]. repeat split; auto. intros off H. unfold gone in *. now rewrite H2, H1. Qed.
Lemma sources_ext : forall zs f f', (forall z, In z zs -> source z f' = source z f) -> sources zs f' = sources zs f.
Proof. intros. unfold sources. now apply map_ext_in. Qed.
Lemma carry_has_rows : forall w u zs f f', carry w zs f f' -> has_rows w u zs f -> has_rows w u zs f'.
Proof.
  intros w u zs f f' [[C1 [C2 [C3 C4]]] C5] H off [[n [L1 L2]] L3]. destruct (H off) as [a [A1 A2]].
  - split; [exists n; split; congruence|auto].
  - exists a. split; [|now rewrite (sources_ext _ _ _ C5)]. unfold row_ref in *. now rewrite C2, C1.
Qed.

(* ---- schemas ---- *)
Lemma update_field_meta_ids : forall l i m, map fd_id (update_field_meta l i m) = map fd_id l.
Proof. intros. unfold update_field_meta. rewrite map_map. apply map_ext. intros x. now destruct (_ =? _)%Z. Qed.
Lemma apply_config_ids : forall o c s, field_ids (snd (apply_config o c s)) = field_ids s.
Proof.
  intros. destruct o; try reflexivity; [now destruct upsert|]. unfold field_ids. cbn [apply_config snd].
  set (s1 := match smeta with Some m => {| sc_fields := sc_fields s; sc_meta := m |} | None => s end).
  assert (sc_fields s1 = sc_fields s) as <- by (unfold s1; now destruct smeta).
  destruct fmeta as [l|]; auto. cbn [sc_fields]. generalize (sc_fields s1). clear. induction l as [|kv t IH]; intros l0; auto.
  cbn [fold_left]. now rewrite IH, update_field_meta_ids.
Qed.
(* what a commit other than Restore builds *)
Lemma commit_built : forall h t file c m' ixs, commit_on h t file c = BOk (m', ixs) -> is_reset (t_op t) = false -> h <> [] ->
  exists le sch nr fs nr', last_entry h = Some le /\ op_schema (t_op t) (Some (e_man le)) = BOk sch /\ start_next_row (Some (e_man le)) c = BOk nr /\
    apply_op (t_op t) (Some (e_man le)) sch (e_idx le) (next_id (t_op t) (Some (e_man le))) nr = BOk (fs, ixs, nr') /\
    (forall f, In f (m_fragments m') <-> In f fs) /\ field_ids (m_schema m') = field_ids sch /\ m_max (e_man le) <= m_max m' /\ (fs = [] -> m_fragments m' = []).
Proof.
  intros h t file c m' ixs H Hr Hne. apply commit_inv in H as [[v [le [old [E1 _]]]]|[m0 [E1 [E2 E3]]]]; [rewrite E1 in Hr; discriminate|].
  destruct (last_entry h) as [le|] eqn:El.
  - assert (latest h = Some (e_man le)) as L by (unfold latest; now rewrite El). rewrite L in E1.
    apply build_inv in E1 as [sch [nr [fs [nr' [B1 [B2 [B3 [B4 [B5 [B6 [_ [_ [B9 _]]]]]]]]]]]]].
    pose proof (finish_inv _ _ _ E2) as [F1 [_ [F3 [_ [_ [_ [_ [F8 _]]]]]]]].
    exists le, sch, nr, fs, nr'. split; auto. split; auto. split; auto. split; auto. split; [|split; [|split]].
    + intros f. rewrite F1, B4. apply sort_frags_In.
    + rewrite F3, B9. apply apply_config_ids.
    + rewrite F8, B6. cbn [cur_max]. lia.
    + intros ->. rewrite F1, B4. reflexivity.
  - exfalso. apply Hne. apply latest_None. unfold latest. now rewrite El.
Qed.
(* the schema only changes by Merge, Project and resets *)
Lemma schema_kept : forall h t file c m' ixs m, commit_on h t file c = BOk (m', ixs) -> is_reset (t_op t) = false -> latest h = Some m ->
  match t_op t with Merge _ s | Project s => field_ids (m_schema m') = field_ids s | _ => field_ids (m_schema m') = field_ids (m_schema m) end.
Proof.
  intros h t file c m' ixs m H Hr L. assert (h <> []) as Hne by (intros ->; discriminate).
  destruct (commit_built _ _ _ _ _ _ H Hr Hne) as [le [sch [nr [fs [nr' [E1 [E2 [_ [_ [_ [E3 _]]]]]]]]]]].
  unfold latest in L. rewrite E1 in L. injection L as <-. rewrite E3. destruct (t_op t); cbn in *; try discriminate; injection E2 as <-; auto.
Qed.

(* ---- fragment bitmaps under compaction ---- *)
Definition covered (b : list N) (g : rewrite_group) : Prop := exists o, In o (rg_old g) /\ In (u32 (f_id o)) b.
Definition all_covered (b : list N) (g : rewrite_group) : Prop := forall o, In o (rg_old g) -> In (u32 (f_id o)) b.
Lemma existsb_covered : forall b g, existsb (fun i => memN i b) (map (fun f => u32 (f_id f)) (rg_old g)) = true <-> covered b g.
Proof.
  intros. rewrite existsb_exists. split.
  - intros [i [H1 H2]]. apply in_map_iff in H1 as [o [<- H1]]. apply memN_In in H2. exists o. auto.
  - intros [o [H1 H2]]. exists (u32 (f_id o)). split; [now apply (in_map (fun f => u32 (f_id f)))|now apply memN_In].
Qed.
Lemma forallb_covered : forall b g, forallb (fun i => memN i b) (map (fun f => u32 (f_id f)) (rg_old g)) = true <-> all_covered b g.
Proof.
  intros. rewrite forallb_forall. split.
  - intros H o Ho. apply memN_In, H. now apply (in_map (fun f => u32 (f_id f))).
  - intros H i Hi. apply in_map_iff in Hi as [o [<- Ho]]. apply memN_In. auto.
Qed.
(* refuses exactly when some group is covered in part *)
Lemma recalc_ok : forall gs b new, (exists b', recalc_loop b new gs = BOk b') <-> forall g, In g gs -> covered b g -> all_covered b g.
Proof.
  induction gs as [|g t IH]; intros b new; cbn [recalc_loop].
  - split; [intros _ ? []|intros _; eauto].
  - destruct (existsb _ _) eqn:E.
    + destruct (forallb _ _) eqn:F.
      * rewrite IH. apply forallb_covered in F. split; [intros H g' [<-|Hg] C; auto|intros H g' Hg; apply H; now right].
      * split; [intros [? ?]; discriminate|]. intros H. exfalso. apply existsb_covered in E. specialize (H g (or_introl eq_refl) E). apply forallb_covered in H. congruence.
    + rewrite IH. split; [intros H g' [<-|Hg] C|intros H g' Hg; apply H; now right]; auto. apply existsb_covered in C. congruence.
Qed.
Lemma recalc_not_panic : forall gs b new, recalc_loop b new gs <> BPanic.
Proof. induction gs as [|g t IH]; intros; cbn [recalc_loop]; [discriminate|]. destruct (existsb _ _); auto. destruct (forallb _ _); auto. discriminate. Qed.
(* what is listed afterwards was listed, or is new in a covered group *)
Lemma recalc_sound : forall gs b new b' i, recalc_loop b new gs = BOk b' -> In i b' ->
  In i new \/ exists g n, In g gs /\ In n (rg_new g) /\ u32 (f_id n) = i /\ covered b g /\ all_covered b g.
Proof.
  induction gs as [|g t IH]; intros b new b' i H Hi; cbn [recalc_loop] in H.
  - injection H as <-. auto.
  - destruct (existsb _ _) eqn:E.
    + destruct (forallb _ _) eqn:F; [|discriminate]. destruct (IH _ _ _ _ H Hi) as [C|[g' [n [G1 G2]]]].
      * apply s_union_In in C as [C|C]; [apply s_diff_In in C as [C _]; auto|]. rewrite s_of_list_In in C. apply in_map_iff in C as [n [N1 N2]].
        right. exists g, n. apply existsb_covered in E. apply forallb_covered in F. repeat split; auto. now left.
      * right. exists g', n. split; [now right|exact G2].
    + destruct (IH _ _ _ _ H Hi) as [C|[g' [n [G1 G2]]]]; auto. right. exists g', n. split; [now right|exact G2].
Qed.
(* nothing is lost, except old fragments of covered groups *)
Lemma recalc_complete : forall gs b new b' i, recalc_loop b new gs = BOk b' ->
  (forall g o, In g gs -> In o (rg_old g) -> u32 (f_id o) <> i) -> In i new -> In i b'.
Proof.
  induction gs as [|g t IH]; intros b new b' i H Ho Hi; cbn [recalc_loop] in H.
  - now injection H as <-.
  - assert (forall g' o, In g' t -> In o (rg_old g') -> u32 (f_id o) <> i) as Ho' by (intros g' o Hg; apply Ho; now right).
    destruct (existsb _ _); [destruct (forallb _ _); [|discriminate]|]; eapply IH; eauto.
    apply s_union_In. left. apply s_diff_In. split; auto. intros C. apply in_map_iff in C as [o [C1 C2]]. apply (Ho g o); auto. now left.
Qed.
(* old fragments of covered groups are dropped, unless also among the new *)
Lemma recalc_drops : forall gs b new b' g o, recalc_loop b new gs = BOk b' -> In g gs -> In o (rg_old g) -> covered b g ->
  (forall g' n, In g' gs -> In n (rg_new g') -> u32 (f_id n) <> u32 (f_id o)) -> ~ In (u32 (f_id o)) b'.
Proof.
  assert (Keep : forall gs b new b' i, recalc_loop b new gs = BOk b' -> (forall g' n, In g' gs -> In n (rg_new g') -> u32 (f_id n) <> i) -> ~ In i new -> ~ In i b').
  { intros gs b new b' i H Hn Hi C. destruct (recalc_sound _ _ _ _ _ H C) as [C1|[g [n [G1 [G2 [G3 _]]]]]]; auto. now apply (Hn g n). }
  induction gs as [|g0 t IH]; intros b new b' g o H Hg Ho Hc Hn; [destruct Hg|]. cbn [recalc_loop] in H.
  assert (forall g' n, In g' t -> In n (rg_new g') -> u32 (f_id n) <> u32 (f_id o)) as Hn' by (intros g' n Hg'; apply Hn; now right).
  destruct Hg as [->|Hg].
  - apply existsb_covered in Hc. rewrite Hc in H. destruct (forallb _ _); [|discriminate]. eapply Keep; eauto. intros C. apply s_union_In in C as [C|C].
    + apply s_diff_In in C as [_ C]. apply C. now apply (in_map (fun f => u32 (f_id f))).
    + rewrite s_of_list_In in C. apply in_map_iff in C as [n [N1 N2]]. apply (Hn g n); auto. now left.
  - destruct (existsb _ _); [destruct (forallb _ _); [|discriminate]|]; eapply IH; eauto.
Qed.
(* the new fragments of covered groups are listed *)
Lemma recalc_adds : forall gs b new b' g n, recalc_loop b new gs = BOk b' -> In g gs -> In n (rg_new g) -> covered b g ->
  (forall g' o, In g' gs -> In o (rg_old g') -> u32 (f_id o) <> u32 (f_id n)) -> In (u32 (f_id n)) b'.
Proof.
  induction gs as [|g0 t IH]; intros b new b' g n H Hg Hn Hc Ho; [destruct Hg|]. cbn [recalc_loop] in H.
  assert (forall g' o, In g' t -> In o (rg_old g') -> u32 (f_id o) <> u32 (f_id n)) as Ho' by (intros g' o Hg'; apply Ho; now right).
  destruct Hg as [->|Hg].
  - apply existsb_covered in Hc. rewrite Hc in H. destruct (forallb _ _); [|discriminate]. eapply recalc_complete; eauto.
    apply s_union_In. right. apply s_of_list_In. now apply (in_map (fun f => u32 (f_id f))).
  - destruct (existsb _ _); [destruct (forallb _ _); [|discriminate]|]; eapply IH; eauto.
Qed.

(* for fragments with 32-bit ids, new ids distinct from old ones and from those listed *)
Definition old_of (gs : list rewrite_group) : list N := map f_id (flat_map rg_old gs).
Definition new_of (gs : list rewrite_group) : list N := map f_id (flat_map rg_new gs).
Lemma old_of_In : forall gs i, In i (old_of gs) <-> exists g o, In g gs /\ In o (rg_old g) /\ f_id o = i.
Proof.
  intros. unfold old_of. rewrite in_map_iff. split.
  - intros [o [H1 H2]]. apply in_flat_map in H2 as [g [H2 H3]]. eauto.
  - intros [g [o [H1 [H2 H3]]]]. exists o. split; auto. apply in_flat_map. eauto.
Qed.
Lemma new_of_In : forall gs i, In i (new_of gs) <-> exists g n, In g gs /\ In n (rg_new g) /\ f_id n = i.
Proof.
  intros. unfold new_of. rewrite in_map_iff. split.
  - intros [o [H1 H2]]. apply in_flat_map in H2 as [g [H2 H3]]. eauto.
  - intros [g [o [H1 [H2 H3]]]]. exists o. split; auto. apply in_flat_map. eauto.
Qed.
Lemma u32_id : forall i, i < two32 -> u32 i = i.
Proof. intros. unfold u32. now apply N.mod_small. Qed.
Lemma covered_small : forall b gs g, (forall i, In i (old_of gs) -> i < two32) -> In g gs -> (covered b g <-> exists o, In o (rg_old g) /\ In (f_id o) b).
Proof. intros b gs g H Hg. unfold covered. split; intros [o [H1 H2]]; exists o; split; auto; rewrite ?u32_id in *; auto; apply H, old_of_In; eauto. Qed.
Lemma all_covered_small : forall b gs g, (forall i, In i (old_of gs) -> i < two32) -> In g gs -> (all_covered b g <-> forall o, In o (rg_old g) -> In (f_id o) b).
Proof. intros b gs g H Hg. unfold all_covered. split; intros X o Ho; specialize (X o Ho); rewrite ?u32_id in *; auto; apply H, old_of_In; eauto. Qed.
Theorem recalculate_exact : forall b gs, (forall i, In i (old_of gs) \/ In i (new_of gs) -> i < two32) -> (forall i, In i (new_of gs) -> ~ In i (old_of gs)) ->
  ((exists b', recalculate_fragment_bitmap b gs = BOk b') <-> forall g o o', In g gs -> In o (rg_old g) -> In o' (rg_old g) -> In (f_id o) b -> In (f_id o') b) /\
  forall b', recalculate_fragment_bitmap b gs = BOk b' -> forall i,
    In i b' <-> (In i b /\ ~ In i (old_of gs)) \/ exists g o n, In g gs /\ In o (rg_old g) /\ In (f_id o) b /\ In n (rg_new g) /\ f_id n = i.
Proof.
  intros b gs Hs Hd. assert (Hs1 : forall i, In i (old_of gs) -> i < two32) by auto. assert (Hs2 : forall i, In i (new_of gs) -> i < two32) by auto.
  unfold recalculate_fragment_bitmap. split.
  - rewrite recalc_ok. split.
    + intros H g o o' Hg Ho Ho' Hb. specialize (H g Hg). rewrite (covered_small b gs), (all_covered_small b gs) in H by auto. apply H; eauto.
    + intros H g Hg C. rewrite (covered_small b gs) in C by auto. rewrite (all_covered_small b gs) by auto. destruct C as [o [C1 C2]]. intros o' Ho'. eapply (H g o o'); eauto.
  - intros b' H i. split.
    + intros Hi. destruct (in_dec N.eq_dec i (old_of gs)) as [Ho|Ho].
      * destruct (recalc_sound _ _ _ _ _ H Hi) as [C|[g [n [G1 [G2 [G3 [G4 _]]]]]]].
        -- exfalso. apply old_of_In in Ho as [g [o [O1 [O2 <-]]]]. rewrite <- (u32_id (f_id o)) in Hi by (apply Hs1, old_of_In; eauto).
           revert Hi. eapply recalc_drops; eauto.
           ++ apply (covered_small b gs); eauto.
           ++ intros g' n Hg' Hn. rewrite !u32_id by (first [apply Hs1, old_of_In; eauto; fail | apply Hs2, new_of_In; eauto]). intros E.
              apply (Hd (f_id n)); [apply new_of_In; eauto|]. rewrite E. apply old_of_In; eauto.
        -- right. apply (covered_small b gs) in G4 as [o [O1 O2]]; auto. rewrite u32_id in G3 by (apply Hs2, new_of_In; eauto). exists g, o, n. auto.
      * destruct (recalc_sound _ _ _ _ _ H Hi) as [C|[g [n [G1 [G2 [G3 [G4 _]]]]]]]; auto.
        right. apply (covered_small b gs) in G4 as [o [O1 O2]]; auto. rewrite u32_id in G3 by (apply Hs2, new_of_In; eauto). exists g, o, n. auto.
    + intros [[H1 H2]|[g [o [n [G1 [G2 [G3 [G4 <-]]]]]]]].
      * eapply recalc_complete; eauto. intros g o Hg Ho E. apply H2, old_of_In. exists g, o. rewrite u32_id in E by (apply Hs1, old_of_In; eauto). auto.
      * rewrite <- (u32_id (f_id n)) by (apply Hs2, new_of_In; eauto). eapply recalc_adds; eauto.
        -- apply (covered_small b gs); eauto.
        -- intros g' o' Hg' Ho'. rewrite !u32_id by (first [apply Hs1, old_of_In; eauto; fail | apply Hs2, new_of_In; eauto]). intros E.
           apply (Hd (f_id n)); [apply new_of_In; eauto|]. rewrite <- E. apply old_of_In; eauto.
Qed.

(* ---- the indices of a Rewrite ---- *)
Lemma recalc_all_spec : forall ixs gs ixs', recalc_all ixs gs = BOk ixs' ->
  map ix_uuid ixs' = map ix_uuid ixs /\
  forall ix', In ix' ixs' -> exists ix, In ix ixs /\ ix_uuid ix' = ix_uuid ix /\ ix_fields ix' = ix_fields ix /\
    forall b', ix_bitmap ix' = Some b' -> exists b, ix_bitmap ix = Some b /\ recalculate_fragment_bitmap b gs = BOk b'.
Proof.
  induction ixs as [|ix t IH]; intros gs ixs' H; cbn [recalc_all] in H.
  - injection H as <-. split; auto. intros ? [].
  - apply bbind_ok in H as [ix1 [H1 H]]. apply bbind_ok in H as [t' [H2 H]]. injection H as <-. destruct (IH _ _ H2) as [I1 I2].
    assert (ix_uuid ix1 = ix_uuid ix /\ ix_fields ix1 = ix_fields ix /\ forall b', ix_bitmap ix1 = Some b' -> exists b, ix_bitmap ix = Some b /\ recalculate_fragment_bitmap b gs = BOk b') as [E1 [E2 E3]].
    { destruct (ix_bitmap ix) as [b|] eqn:Eb.
      - apply bbind_ok in H1 as [b' [R1 R2]]. injection R2 as <-. cbn. repeat split; auto. intros b2 E. injection E as <-. eauto.
      - injection H1 as <-. repeat split; auto. intros b' E. congruence. }
    split; [cbn; congruence|]. intros ix' [<-|Hi]; [exists ix; split; [now left|auto]|]. destruct (I2 ix' Hi) as [x [X1 X2]]. exists x. split; [now right|exact X2].
Qed.
Lemma rewrite_first_spec : forall ixs r gs ixs', rewrite_first ixs r gs = BOk ixs' ->
  exists pre ix post b b', ixs = pre ++ ix :: post /\ ix_uuid ix = rw_old r /\ ix_bitmap ix = Some b /\ recalculate_fragment_bitmap b gs = BOk b' /\
    ixs' = pre ++ set_uuid (set_bitmap ix (Some b')) (rw_new r) :: post.
Proof.
  induction ixs as [|ix t IH]; intros r gs ixs' H; cbn [rewrite_first] in H; [discriminate|]. destruct (ix_uuid ix =? rw_old r) eqn:E.
  - destruct (ix_bitmap ix) as [b|] eqn:Eb; [|discriminate]. apply bbind_ok in H as [b' [H1 H2]]. injection H2 as <-.
    exists [], ix, t, b, b'. repeat split; auto. lia.
  - apply bbind_ok in H as [t' [H1 H2]]. injection H2 as <-. destruct (IH _ _ _ H1) as [pre [x [post [b [b' [P1 [P2 [P3 [P4 P5]]]]]]]]].
    exists (ix :: pre), x, post, b, b'. subst. repeat split; auto.
Qed.
Definition remapped (gs : list rewrite_group) (ix ix' : index) (u : N) : Prop :=
  ix_uuid ix' = u /\ ix_fields ix' = ix_fields ix /\ exists b b', ix_bitmap ix = Some b /\ ix_bitmap ix' = Some b' /\ recalculate_fragment_bitmap b gs = BOk b'.
Lemma rewrite_indices_spec : forall gs rw seen ixs ixs', handle_rewrite_indices seen ixs rw gs = BOk ixs' ->
  NoDup (map ix_uuid ixs) -> NoDup (map rw_new rw) -> (forall r, In r rw -> ~ In (rw_new r) (map ix_uuid ixs)) ->
  (forall r r', In r rw -> In r' rw -> rw_new r <> rw_old r') ->
  NoDup (map ix_uuid ixs') /\
  (forall u, In u (map ix_uuid ixs') -> In u (map ix_uuid ixs) \/ In u (map rw_new rw)) /\
  (forall r, In r rw -> In (rw_old r) (map ix_uuid ixs)) /\
  forall ix', In ix' ixs' -> (In ix' ixs /\ ~ In (ix_uuid ix') (map rw_old rw)) \/ exists ix r, In ix ixs /\ In r rw /\ ix_uuid ix = rw_old r /\ remapped gs ix ix' (rw_new r).
Proof.
  intros gs. induction rw as [|r t IH]; intros seen ixs ixs' H Hn Hd Hf Hx; cbn [handle_rewrite_indices] in H.
  - injection H as <-. split; auto. split; auto. split; [intros ? []|]. auto.
  - destruct (memN _ seen); [discriminate|]. apply bbind_ok in H as [ixs1 [H1 H2]].
    destruct (rewrite_first_spec _ _ _ _ H1) as [pre [ix [post [b [b' [P1 [P2 [P3 [P4 P5]]]]]]]]]. set (ix1 := set_uuid (set_bitmap ix (Some b')) (rw_new r)) in *.
    subst ixs ixs1. cbn [map] in Hd. inversion Hd as [|? ? Hd1 Hd2]; subst.
    assert (Hf0 : ~ In (rw_new r) (map ix_uuid (pre ++ ix :: post))) by (apply Hf; now left).
    rewrite map_app in Hn, Hf0. cbn [map] in Hn, Hf0. rewrite in_app_iff in Hf0. cbn [In] in Hf0.
    assert (U1 : forall u, In u (map ix_uuid (pre ++ ix1 :: post)) -> In u (map ix_uuid (pre ++ ix :: post)) \/ u = rw_new r).
    { intros u. rewrite !map_app, !in_app_iff. cbn [map In ix1 set_uuid ix_uuid]. intros [C|[C|C]]; auto. }
    assert (Hno : forall x, In x pre \/ In x post -> ix_uuid x <> rw_old r).
    { intros x Hxx E. apply NoDup_remove_2 in Hn. apply Hn. apply in_app_iff. rewrite P2, <- E. destruct Hxx; [left|right]; now apply in_map. }
    destruct (IH _ _ _ H2) as [I1 [I2 [I4 I3]]].
    + rewrite map_app. cbn [map ix1 set_uuid ix_uuid]. apply NoDup_Add with (a := rw_new r) (l := map ix_uuid pre ++ map ix_uuid post); [apply Add_app|].
      split; [now apply NoDup_remove_1 in Hn|]. rewrite in_app_iff. tauto.
    + exact Hd2.
    + intros r' Hr' C. apply U1 in C as [C|C]; [apply (Hf r'); [now right|exact C]|]. apply Hd1. rewrite <- C. now apply in_map.
    + intros a b0 Ha Hb. apply Hx; now right.
    + split; [exact I1|]. split; [|split].
      * intros u Hu. cbn [map In]. destruct (I2 u Hu) as [C|C]; auto. apply U1 in C as [C|C]; auto.
      * intros r0 [<-|Hr0]; [rewrite map_app; apply in_app_iff; right; left; auto|]. destruct (U1 _ (I4 r0 Hr0)) as [C|C]; auto.
        exfalso. apply (Hx r r0); auto; [now left|now right].
      * intros ix' Hi. destruct (I3 ix' Hi) as [[C1 C2]|[x [r' [X1 [X2 [X3 X4]]]]]].
        -- apply in_app_iff in C1 as [C1|[C1|C1]].
           ++ left. split; [apply in_app_iff; auto|]. cbn [map In]. intros [C|C]; auto. apply (Hno ix'); auto.
           ++ subst ix'. right. exists ix, r. split; [apply in_app_iff; right; now left|]. split; [now left|]. split; auto.
              repeat split; auto. exists b, b'. auto.
           ++ left. split; [apply in_app_iff; right; now right|]. cbn [map In]. intros [C|C]; auto. apply (Hno ix'); auto.
        -- right. exists x, r'. split; [|split; [now right|auto]]. apply in_app_iff in X1 as [X1|[X1|X1]]; [apply in_app_iff; auto| |apply in_app_iff; right; now right].
           exfalso. subst x. cbn [ix1 set_uuid ix_uuid] in X3. apply (Hx r r'); auto; [now left|now right].
Qed.

(* ---- histories whose writers did their part ---- *)
Definition indexed (w : world) (h : list entry) : Prop := good h /\ all_entries (writer_honest w) h /\ all_entries enough_checked h.
Lemma indexed_snoc : forall w h e, indexed w (h ++ [e]) -> indexed w h /\ good (h ++ [e]) /\ writer_honest w h (e_txn e) /\ enough_checked h (e_txn e).
Proof.
  intros w h e [H1 [H2 H3]]. apply all_snoc in H2 as [H2 H4]. apply all_snoc in H3 as [H3 H5]. split; [|split; [|split]]; auto. split; [now apply good_prefix in H1|split; auto].
Qed.
Lemma good_commit : forall h e, good (h ++ [e]) -> exists file, commit_on h (e_txn e) file (e_cfg e) = BOk (e_man e, e_idx e).
Proof. intros h e [H _]. apply history_snoc in H as [_ [_ [_ H]]]. exact H. Qed.
Lemma last_nonempty : forall h le, last_entry h = Some le -> h <> [].
Proof. intros h le H ->. discriminate. Qed.
Lemma last_latest : forall h le, last_entry h = Some le -> latest h = Some (e_man le).
Proof. intros h le H. unfold latest. now rewrite H. Qed.
Lemma good_built : forall h e le, good (h ++ [e]) -> last_entry h = Some le -> is_reset (t_op (e_txn e)) = false ->
  exists sch nr fs nr', op_schema (t_op (e_txn e)) (Some (e_man le)) = BOk sch /\ start_next_row (Some (e_man le)) (e_cfg e) = BOk nr /\
    apply_op (t_op (e_txn e)) (Some (e_man le)) sch (e_idx le) (next_id (t_op (e_txn e)) (Some (e_man le))) nr = BOk (fs, e_idx e, nr') /\
    (forall f, In f (m_fragments (e_man e)) <-> In f fs) /\ field_ids (m_schema (e_man e)) = field_ids sch /\ m_max (e_man le) <= m_max (e_man e) /\
    (fs = [] <-> m_fragments (e_man e) = []).
Proof.
  intros h e le G El Hr. destruct (good_commit _ _ G) as [file C].
  destruct (commit_built _ _ _ _ _ _ C Hr (last_nonempty _ _ El)) as [le' [sch [nr [fs [nr' [E1 [E2 [E3 [E4 [E5 [E6 [E7 E8]]]]]]]]]]]].
  rewrite El in E1. injection E1 as <-. exists sch, nr, fs, nr'. repeat split; auto; try apply E5.
  intros E. destruct fs as [|f t]; auto. exfalso. specialize (E5 f). rewrite E in E5. apply E5. now left.
Qed.

(* a fragment the operation does not touch *)
Lemma frame_sources : forall h e le f, good (h ++ [e]) -> last_entry h = Some le -> keeps_others (t_op (e_txn e)) -> In f (m_fragments (e_man le)) ->
  ~ touches (t_op (e_txn e)) (f_id f) -> exists f', In f' (m_fragments (e_man e)) /\ same_deletions f f' /\
    forall z, In z (field_ids (m_schema (e_man e))) -> source z f' = source z f.
Proof.
  intros h e le f G El K Hf Ht. assert (is_reset (t_op (e_txn e)) = false) as Hr by (destruct (t_op (e_txn e)); cbn in *; auto; destruct K).
  destruct (good_built _ _ _ G El Hr) as [sch [nr [fs [nr' [E1 [E2 [E3 [E4 [E5 _]]]]]]]]].
  eapply apply_frame in E3; eauto. eexists. split; [apply E4, E3|]. destruct (is_project (t_op (e_txn e))).
  - split; [repeat split; auto|]. intros z Hz. apply source_project. now rewrite <- E5.
  - split; [repeat split; auto|]. auto.
Qed.

(* what an accepted row operation finds of the fragments it was computed on *)
Lemma keep_sources : forall w h e m0 m, indexed w h -> good (h ++ [e]) -> row_op (t_op (e_txn e)) -> man_at h (t_read (e_txn e)) = Some m0 -> latest h = Some m ->
  incl (field_ids (m_schema m)) (field_ids (m_schema m0)) /\
  forall f, In f (m_fragments m0) -> touches (t_op (e_txn e)) (f_id f) ->
  exists f', In f' (m_fragments m) /\ same_deletions f f' /\ forall z, In z (field_ids (m_schema m)) -> source z f' = source z f.
Proof.
  intros w h e m0 m I0 G Ha H0 Hm. destruct G as [G _]. apply history_snoc in G as [_ [_ [Hc _]]].
  eapply (interval_ind (indexed w) (undisturbed (t_op (e_txn e)))
    (fun a b => incl (field_ids (m_schema b)) (field_ids (m_schema a)) /\ forall f, In f (m_fragments a) -> touches (t_op (e_txn e)) (f_id f) ->
       exists f', In f' (m_fragments b) /\ same_deletions f f' /\ forall z, In z (field_ids (m_schema b)) -> source z f' = source z f)); eauto.
  - intros h1 e1 A1. now apply indexed_snoc in A1.
  - intros a. split; [apply incl_refl|]. intros f Hf _. exists f. repeat split; auto.
  - intros h1 e1 a b A1 [K1 K2] L1 [P1 P2]. apply indexed_snoc in A1 as [A1 [A2 [A3 A4]]]. destruct (latest_last _ _ L1) as [le [El <-]].
    assert (Hi : incl (field_ids (m_schema (e_man e1))) (field_ids (m_schema (e_man le)))).
    { destruct (good_commit _ _ A2) as [file C]. assert (is_reset (t_op (e_txn e1)) = false) as Hr by (destruct (t_op (e_txn e1)); cbn in *; auto; destruct K1).
      pose proof (schema_kept _ _ _ _ _ _ _ C Hr L1) as S. unfold enough_checked in A4.
      destruct (t_op (e_txn e1)); cbn in K1; try tauto; rewrite S; try apply incl_refl. auto. }
    split; [eapply incl_tran; eauto|]. intros f Hf Ht. destruct (P2 f Hf Ht) as [f1 [F1 [F2 F3]]].
    assert (f_id f1 = f_id f) as Ei by apply F2.
    destruct (frame_sources _ _ _ f1 A2 El K1 F1) as [f2 [G1 [G2 G3]]]; [rewrite Ei; now apply K2|].
    exists f2. split; auto. split.
    + destruct F2 as [X1 [X2 [X3 X4]]], G2 as [Y1 [Y2 [Y3 Y4]]]. repeat split; congruence.
    + intros z Hz. rewrite G3 by auto. apply F3. auto.
  - apply Forall_forall. intros x Hx. rewrite Forall_forall in Hc. apply accepted_undisturbed; auto.
Qed.

Lemma update_frag_cases : forall upd f, update_frag upd f = f \/ exists u, In u upd /\ f_id u = f_id f /\ update_frag upd f = u.
Proof.
  unfold update_frag. induction upd as [|u t IH]; intros f; auto. cbn [fold_left]. destruct (f_id u =? f_id f) eqn:E.
  - destruct (IH u) as [H|[x [H1 [H2 H3]]]].
    + right. exists u. split; [now left|]. split; [lia|auto].
    + right. exists x. split; [now right|]. split; [|auto]. lia.
  - destruct (IH f) as [H|[x [H1 [H2 H3]]]]; auto. right. exists x. split; [now right|]. auto.
Qed.
Lemma frag_unique : forall m a b, man_wf m -> In a (m_fragments m) -> In b (m_fragments m) -> f_id a = f_id b -> a = b.
Proof.
  intros m a b W Ha Hb E. assert (NoDup (map f_id (m_fragments m))) as Hn by (apply sinc_NoDup, W).
  pose proof (find_self _ _ Hn Ha) as X. pose proof (find_self _ _ Hn Hb) as Y. rewrite E in X. congruence.
Qed.
Definition fresh_frag (h : list entry) (m : manifest) (i : N) : Prop := ~ used h i \/ m_max m < i \/ (i = 0 /\ emptied m).
Lemma new_fresh : forall h m o l i, man_wf m -> is_reset o = false -> (forall j, In j (chosen_ids l) -> ~ used h j) ->
  In i (map f_id (fst (fragments_with_ids l (next_id o (Some m))))) -> fresh_frag h m i.
Proof.
  intros h m o l i W Hr Hc Hi. apply in_map_iff in Hi as [g [<- Hg]]. destruct (with_ids_In _ _ _ Hg) as [f [F1 [[F2 ->]|[F2 [j [-> F3]]]]]].
  - left. apply Hc. rewrite chosen_explicit. apply explicit_In. eauto.
  - cbn. right. destruct (N.eq_dec (next_id o (Some m)) 0) as [E|E].
    + assert (emptied m) as Em.
      { assert (next_id o (Some m) = match max_fragment_id m with Some i => i + 1 | None => 0 end) as E2 by (destruct o; cbn in *; auto; discriminate).
        rewrite E2 in E. unfold max_fragment_id in E. destruct (m_max m =? 0) eqn:E0; [|lia]. destruct (m_fragments m) eqn:Ef; [|lia].
        split; auto. lia. }
      destruct (N.eq_dec j 0); [right; auto|left]. destruct Em. lia.
    + left. pose proof (proj2 (proj2 (next_id_above o m W Hr)) E). lia.
Qed.
Lemma chosen_unused : forall h e l, good (h ++ [e]) -> (t_op (e_txn e) = Append l \/ exists a b, t_op (e_txn e) = Update a b l) -> forall j, In j (chosen_ids l) -> ~ used h j.
Proof.
  intros h e l [_ G] H j Hj. apply all_snoc in G as [_ G]. unfold ids_honest in G. destruct H as [H|[a [b H]]]; rewrite H in G; now apply G.
Qed.
Lemma replace_all_from : forall fs r l f', replace_all fs r = BOk l -> In f' l -> exists id nf f, In (id, nf) r /\ In f fs /\ replace_one f nf = BOk f'.
Proof.
  intros fs. induction r as [|[i nf] t IH]; intros l f' H Hf; cbn [replace_all] in H.
  - injection H as <-. destruct Hf.
  - destruct (find_fragment fs i) as [f|] eqn:E; [|discriminate]. apply bbind_ok in H as [f1 [H1 H]]. apply bbind_ok in H as [l' [H2 H]]. injection H as <-.
    destruct Hf as [<-|Hf].
    + exists i, nf, f. split; [now left|]. split; auto. unfold find_fragment in E. now apply find_some in E.
    + destruct (IH _ _ H2 Hf) as [a [b [c [C1 C2]]]]. exists a, b, c. split; [now right|exact C2].
Qed.
Lemma Forall2_In_r : forall {A B} (R : A -> B -> Prop) a b y, Forall2 R a b -> In y b -> exists x, In x a /\ R x y.
Proof. intros A B R a b y H. induction H; intros Hy; [destruct Hy|]. destruct Hy as [<-|Hy]; [exists x; split; auto; now left|]. destruct (IHForall2 Hy) as [z [Z1 Z2]]. exists z. split; auto. now right. Qed.

(* where the fragments of the next version come from *)
Lemma step_frags : forall w h e le f', indexed w (h ++ [e]) -> last_entry h = Some le -> is_reset (t_op (e_txn e)) = false ->
  (forall gs rw, t_op (e_txn e) <> Rewrite gs rw) -> In f' (m_fragments (e_man e)) ->
  (exists f, In f (m_fragments (e_man le)) /\ more_deleted w f f' /\
     forall ix z, In ix (e_idx le) -> In z (ix_fields ix) -> In z (field_ids (m_schema (e_man le))) -> In z (field_ids (m_schema (e_man e))) -> source z f' = source z f) \/
  fresh_frag h (e_man le) (f_id f').
Proof.
  intros w h e le f' I0 El Hr Hnr Hf'. apply indexed_snoc in I0 as [I0 [G [Hw He]]].
  destruct (good_built _ _ _ G El Hr) as [sch [nr [fs [nr' [E1 [E2 [E3 [E4 [E5 _]]]]]]]]]. apply E4 in Hf'.
  pose proof (history_wf _ (good_prefix _ _ G)) as W. pose proof (W le (last_In _ _ El)) as W1. pose proof (last_latest _ _ El) as L.
  assert (Same : In f' (m_fragments (e_man le)) -> exists f, In f (m_fragments (e_man le)) /\ more_deleted w f f' /\
     forall ix z, In ix (e_idx le) -> In z (ix_fields ix) -> In z (field_ids (m_schema (e_man le))) -> In z (field_ids (m_schema (e_man e))) -> source z f' = source z f).
  { intros H. exists f'. split; auto. split; [apply more_deleted_refl|auto]. }
  assert (Upd : forall u f, row_op (t_op (e_txn e)) -> touches (t_op (e_txn e)) (f_id f) -> In f (m_fragments (e_man le)) -> f_id u = f_id f ->
    (exists m f0, man_at h (t_read (e_txn e)) = Some m /\ In f0 (m_fragments m) /\ more_deleted w f0 u) ->
    exists m0 f0, man_at h (t_read (e_txn e)) = Some m0 /\ In f0 (m_fragments m0) /\ f_id f0 = f_id u /\ more_deleted w f0 u /\ more_deleted w f u /\
      forall z, In z (field_ids (m_schema (e_man le))) -> source z f = source z f0).
  { intros u f Hrow Ht Hf Eu [m0 [f0 [M1 [M2 M3]]]]. assert (f_id u = f_id f0) as Eu0 by apply M3.
    destruct (keep_sources _ _ _ _ _ I0 G Hrow M1 L) as [_ K]. destruct (K f0 M2) as [f1 [K1 [K2 K3]]]; [now rewrite <- Eu0, Eu|].
    assert (f1 = f) as -> by (apply (frag_unique (e_man le)); auto; destruct K2 as [K2 _]; congruence).
    exists m0, f0. refine (conj M1 (conj M2 (conj (eq_sym Eu0) (conj M3 (conj _ K3))))). destruct K2 as [X1 [X2 [X3 X4]]]. destruct M3 as [Y1 [Y2 [Y3 Y4]]].
    repeat split; try congruence. intros off Hg. apply Y4. unfold gone in *. now rewrite X2, X1 in Hg. }
  destruct (t_op (e_txn e)) eqn:Eo; cbn [is_reset apply_op] in *; try discriminate.
  - apply bbind_ok in E3 as [[new n0] [R1 R2]]. injection R2 as <- _ _. apply in_app_iff in Hf' as [Hf'|Hf']; [now left; apply Same|].
    right. eapply (new_fresh h (e_man le) (Append fragments) fragments); eauto.
    + eapply chosen_unused; eauto.
    + rewrite <- (with_row_ids_ids _ _ _ _ R1). now apply in_map.
  - injection E3 as <- _ _. left. apply in_map_iff in Hf' as [f [<- Hf]]. apply filter_In in Hf as [Hf _].
    destruct (update_frag_cases updated f) as [->|[u [U1 [U2 ->]]]]; [now exists f; split; [|split; [apply more_deleted_refl|]]|].
    unfold writer_honest in Hw. rewrite Eo in Hw. rewrite Forall_forall in Hw. destruct (Hw u U1) as [m0 [f0 [M1 [M2 [M3 M4]]]]].
    destruct (Upd u f I) as [m1 [f1 [N1 [N2 [N3 [N4 [N5 N6]]]]]]]; auto.
    + cbn. right. exists u. auto.
    + exists m0, f0. auto.
    + exists f. split; auto. split; auto. intros ix z _ _ Z1 _. rewrite N6 by auto. rewrite M1 in N1. injection N1 as <-.
      assert (W0 : man_wf m0). { unfold man_at in M1. destruct (version_entry h (t_read (e_txn e))) as [e0|] eqn:V; [|discriminate]. injection M1 as <-. apply W. now apply version_In in V. }
      assert (f1 = f0) as -> by (apply (frag_unique m0); auto; rewrite N3; apply M3). apply M4.
  - injection E3 as <- _ _. left. auto.
  - exfalso. eapply Hnr; eauto.
  - destruct (negb (same_fields replacements)); [discriminate|]. apply bbind_ok in E3 as [new [R1 R2]]. injection R2 as <- _ _. left.
    apply in_app_iff in Hf' as [Hf'|Hf']; [|apply filter_In in Hf' as [Hf' _]; auto].
    destruct (replace_all_from _ _ _ _ R1 Hf') as [id [nf [f [F1 [F2 F3]]]]]. exists f. split; auto. split.
    + apply same_deletions_more. unfold replace_one in F3. destruct (list_eqb _ _ _); [discriminate|]. injection F3 as <-. repeat split.
    + intros ix z X1 X2 _ _. eapply source_replace; eauto. intros C. unfold enough_checked in He. rewrite Eo in He. eapply He; eauto.
  - injection E3 as <- _ _. left. unfold writer_honest in Hw. rewrite Eo in Hw. destruct Hw as [m0 [M1 M2]].
    destruct G as [G _]. apply history_snoc in G as [Gh [_ [Hc _]]]. rewrite Eo in Hc.
    assert (Q : Forall (fun x => quiet (t_op (e_txn x))) (skipn (N.to_nat (t_read (e_txn e))) h)).
    { apply Forall_forall. intros x Hx. rewrite Forall_forall in Hc. specialize (Hc x Hx). cbn in Hc. destruct (t_op (e_txn x)); try discriminate; exact I. }
    assert (Ef : m_fragments m0 = m_fragments (e_man le)) by (eapply quiet_interval; eauto).
    assert (Es : field_ids (m_schema m0) = field_ids (m_schema (e_man le))).
    { eapply (interval_ind history quiet (fun a b => field_ids (m_schema a) = field_ids (m_schema b))); eauto.
      - intros h1 e1 A1. now apply history_snoc in A1.
      - intros h1 e1 a b A1 A2 L1 P1. rewrite P1. clear P1. apply history_snoc in A1 as [_ [_ [_ [file A1]]]].
        assert (is_reset (t_op (e_txn e1)) = false) as Hr1 by (destruct (t_op (e_txn e1)); cbn in *; auto; destruct A2).
        pose proof (schema_kept _ _ _ _ _ _ _ A1 Hr1 L1) as S. destruct (t_op (e_txn e1)); cbn in A2; try tauto; now rewrite S. }
    destruct (Forall2_In_r _ _ _ _ M2 Hf') as [f [X1 [X2 X3]]]. exists f. rewrite <- Ef. split; auto. split; [now apply same_deletions_more|].
    intros ix z _ _ Z1 Z2. apply X3; [now rewrite Es|]. cbn in E1. injection E1 as <-. now rewrite <- E5.
  - injection E3 as <- _ _. left. auto.
  - apply bbind_ok in E3 as [[new n0] [R1 R2]]. injection R2 as <- _ _. apply in_app_iff in Hf' as [Hf'|Hf'].
    + left. apply in_map_iff in Hf' as [f [Ef' Hf]]. apply filter_In in Hf as [Hf _]. destruct (find (fun u => f_id u =? f_id f) updated) as [u|] eqn:Efi.
      * subst f'. apply find_some in Efi as [U1 U2]. assert (f_id u = f_id f) as U3 by lia.
        unfold writer_honest in Hw. rewrite Eo in Hw. rewrite Forall_forall in Hw.
        destruct (Upd u f I) as [m1 [f1 [N1 [N2 [N3 [N4 [N5 N6]]]]]]]; auto.
        -- cbn. right. exists u. auto.
        -- exists f. split; auto. split; auto. intros ix z Z0 Z1 Z2 _. rewrite N6 by auto. unfold enough_checked in He. rewrite Eo in He. eapply He; eauto.
      * subst f'. auto.
    + right. eapply (new_fresh h (e_man le) (Update removed updated new_fragments) new_fragments); eauto.
      * eapply chosen_unused; eauto.
      * rewrite <- (with_row_ids_ids _ _ _ _ R1). now apply in_map.
  - injection E3 as <- _ _. left. apply in_map_iff in Hf' as [f [<- Hf]]. exists f. split; auto. split; [apply same_deletions_more; repeat split|].
    intros ix z _ _ _ Z2. apply (source_project sch). now rewrite <- E5.
  - injection E3 as <- _ _. left. auto.
Qed.

(* ---- the fragments of a Rewrite ---- *)
Lemma rewrite_frags : forall w h e le gs rw, indexed w (h ++ [e]) -> last_entry h = Some le -> t_op (e_txn e) = Rewrite gs rw ->
  (forall f, In f (m_fragments (e_man e)) <-> (In f (m_fragments (e_man le)) /\ ~ In (f_id f) (old_of gs)) \/ exists g, In g gs /\ In f (rg_new g)) /\
  (forall i, In i (new_of gs) -> ~ used h i /\ i <> 0 /\ i <= m_max (e_man le)) /\
  (forall i, In i (old_of gs) -> In i (frag_ids (e_man le))) /\ NoDup (new_of gs).
Proof.
  intros w h e le gs rw I0 El Eo. apply indexed_snoc in I0 as [I0 [G [Hw _]]]. unfold writer_honest in Hw. rewrite Eo in Hw.
  destruct Hw as [e0 [V [Ho [Hz _]]]]. pose proof (last_latest _ _ El) as L.
  pose proof (history_wf _ (good_prefix _ _ G)) as W. pose proof (W le (last_In _ _ El)) as W1.
  assert (Hold : forall x, In x (flat_map rg_old gs) -> exists f, In f (m_fragments (e_man le)) /\ f_id f = f_id x).
  { intros x Hx. apply in_flat_map in Hx as [g [G1 G2]].
    destruct (keep_sources w h e (e_man e0) (e_man le) I0 G) as [_ K]; [rewrite Eo; exact I|unfold man_at; now rewrite V|auto|].
    destruct (K x (Ho g x G1 G2)) as [f' [P1 [P2 _]]]; [rewrite Eo; cbn; eauto|]. exists f'. split; auto. apply P2. }
  assert (Hex : explicit_ids (flat_map rg_new gs) = new_of gs).
  { unfold explicit_ids, new_of. apply filter_all_true. intros i Hi. apply in_map_iff in Hi as [n [<- Hn]]. apply in_flat_map in Hn as [g [G1 G2]].
    pose proof (Hz g n G1 G2). destruct (f_id n =? 0) eqn:E; auto. lia. }
  assert (Hwi : forall k, fst (fragments_with_ids (flat_map rg_new gs) k) = flat_map rg_new gs).
  { intros k. assert (forall x, In x (flat_map rg_new gs) -> f_id x <> 0) as Hnz by (intros x Hx; apply in_flat_map in Hx as [g [G1 G2]]; eauto).
    clear - Hnz. induction (flat_map rg_new gs) as [|x t IH]; auto. cbn [fragments_with_ids]. pose proof (Hnz x (or_introl eq_refl)).
    destruct (f_id x =? 0) eqn:E; [lia|]. specialize (IH (fun y Hy => Hnz y (or_intror Hy))). destruct (fragments_with_ids t k). cbn in *. now f_equal. }
  assert (Hon : NoDup (new_of gs) /\ forall i, In i (new_of gs) -> ~ used h i /\ i <= m_max (e_man le)).
  { destruct G as [_ G]. apply all_snoc in G as [_ G]. unfold ids_honest in G. rewrite Eo in G. rewrite chosen_explicit, Hex in G. destruct G as [G1 G2]. split; auto.
    intros i Hi. destruct (G2 i Hi) as [U [m [M1 M2]]]. split; auto. rewrite L in M1. now injection M1 as <-. }
  destruct Hon as [Hn1 Hn2]. split; [|split; [|split]].
  - assert (is_reset (t_op (e_txn e)) = false) as Hr by now rewrite Eo.
    destruct (good_built _ _ _ G El Hr) as [sch [nr [fs [nr' [E1 [E2 [E3 [E4 [E5 _]]]]]]]]]. rewrite Eo in E3. cbn [apply_op] in E3.
    apply bbind_ok in E3 as [[fs2 nx] [H1 H2]]. apply bbind_ok in H2 as [ix2 [_ H3]]. injection H3 as <- _ _.
    destruct (next_id_above (Rewrite gs rw) (e_man le) W1 eq_refl) as [X1 [X2 _]].
    assert (P : Permutation fs2 (filter (fun f => negb (memN (f_id f) (old_ids gs))) (m_fragments (e_man le)) ++ fst (fragments_with_ids (flat_map rg_new gs) (next_id (Rewrite gs rw) (Some (e_man le)))))).
    { eapply rewrite_loop_perm; eauto.
      - apply sinc_NoDup, W1.
      - intros f Hf. apply X1. now apply in_map.
      - now rewrite Hex.
      - intros i Hi. rewrite Hex in Hi. split; [apply X2|].
        + apply new_of_In in Hi as [g [n [G1 [G2 <-]]]]. eauto.
        + now apply Hn2.
        + intros C. destruct (Hn2 i Hi) as [U _]. apply U. exists le. split; auto. now apply last_In.
      - intros i Hi. unfold old_ids in Hi. apply in_map_iff in Hi as [x [<- Hx]]. destruct (Hold x Hx) as [f [K1 K2]]. rewrite <- K2. split.
        + apply X1. now apply in_map.
        + rewrite Hex. intros C. destruct (Hn2 _ C) as [U _]. apply U. exists le. split; [now apply last_In|]. now apply in_map. }
    rewrite Hwi in P. intros f. rewrite E4. split.
    + intros Hf. apply (Permutation_in _ P) in Hf. apply in_app_iff in Hf as [Hf|Hf].
      * apply filter_In in Hf as [Hf1 Hf2]. left. split; auto. apply negb_true_iff, memN_false in Hf2. exact Hf2.
      * right. apply in_flat_map in Hf as [g [G1 G2]]. eauto.
    + intros Hf. apply (Permutation_in _ (Permutation_sym P)). apply in_app_iff. destruct Hf as [[F1 F2]|[g [G1 G2]]].
      * left. apply filter_In. split; auto. apply negb_true_iff, memN_false. exact F2.
      * right. apply in_flat_map. eauto.
  - intros i Hi. destruct (Hn2 i Hi). repeat split; auto. apply new_of_In in Hi as [g [n [G1 [G2 <-]]]]. eauto.
  - intros i Hi. apply old_of_In in Hi as [g [o [G1 [G2 <-]]]]. destruct (Hold o) as [f [F1 F2]]; [apply in_flat_map; eauto|]. rewrite <- F2. now apply in_map.
  - exact Hn1.
Qed.

(* ---- the invariant ---- *)
Definition lists_ok (w : world) (h : list entry) (m : manifest) (ix : index) : Prop :=
  incl (ix_fields ix) (field_ids (m_schema m)) /\
  forall b i, ix_bitmap ix = Some b -> In i b -> used h i /\ i <= m_max m /\ (i = 0 -> ~ emptied m) /\
    forall f, In f (m_fragments m) -> f_id f = i -> has_rows w (ix_uuid ix) (ix_fields ix) f.
Definition inv (w : world) (h : list entry) (e : entry) : Prop := (forall ix, In ix (e_idx e) -> lists_ok w h (e_man e) ix) /\ NoDup (map ix_uuid (e_idx e)).
Definition invs (w : world) (h : list entry) : Prop := forall h1 e h2, h = h1 ++ e :: h2 -> inv w (h1 ++ [e]) e.
Lemma used_mono : forall h h' i, used h i -> used (h ++ h') i.
Proof. intros h h' i [e [H1 H2]]. exists e. split; auto. apply in_app_iff. auto. Qed.
Lemma version_split : forall h v e, version_entry h v = Some e -> exists h1 h2, h = h1 ++ e :: h2 /\ N.to_nat v = S (length h1).
Proof.
  intros h v e H. unfold version_entry in H. destruct (v =? 0) eqn:E; [discriminate|]. apply nth_error_split in H as [h1 [h2 [H1 H2]]].
  exists h1, h2. split; auto. lia.
Qed.
Lemma skipn_past : forall {A} (a : list A) x b, skipn (S (length a)) (a ++ x :: b) = b.
Proof. intros A a x b. induction a as [|y t IH]; auto. Qed.
Lemma last_split : forall h e, last_entry h = Some e -> exists h1, h = h1 ++ [e].
Proof.
  intros h e H. destruct h as [|x h'] using rev_ind; [discriminate|]. rewrite last_snoc in H. injection H as <-. eauto.
Qed.
Lemma last_version : forall h e, last_entry h = Some e -> version_entry h (N.of_nat (length h)) = Some e.
Proof.
  intros h e H. unfold version_entry, last_entry in *. destruct h; [discriminate|]. cbn [length] in *.
  destruct (N.of_nat (S (length h)) =? 0) eqn:E; [lia|]. replace (N.to_nat (N.of_nat (S (length h))) - 1)%nat with (S (length h) - 1)%nat by lia. exact H.
Qed.
Lemma invs_last : forall w h e, invs w h -> last_entry h = Some e -> inv w h e.
Proof. intros w h e H El. destruct (last_split _ _ El) as [h1 ->]. now apply (H h1 e []). Qed.
Lemma invs_prefix : forall w h1 h2, invs w (h1 ++ h2) -> invs w h1.
Proof. intros w h1 h2 H a e b E. apply (H a e (b ++ h2)). now rewrite E, <- app_assoc. Qed.

(* ---- what a CreateIndex finds of the fragments it was built on ---- *)
Lemma create_interval : forall w h, indexed w h -> forall h1 e0 h2 le, h = h1 ++ e0 :: h2 -> last_entry h = Some le ->
  (forall news removed e, In e h2 -> conflicts_with (CreateIndex news removed) (t_op (e_txn e)) = false) ->
  (forall e, In e (e0 :: h2) -> ~ emptied (e_man e)) ->
  m_max (e_man e0) <= m_max (e_man le) /\
  forall f', In f' (m_fragments (e_man le)) -> f_id f' <= m_max (e_man e0) -> used (h1 ++ [e0]) (f_id f') ->
    exists f, In f (m_fragments (e_man e0)) /\ more_deleted w f f'.
Proof.
  intros w. induction h as [|e h IH] using rev_ind; intros I0 h1 e0 h2 le E El Hc He; [discriminate|].
  rewrite last_snoc in El. injection El as <-. destruct h2 as [|x h2 _] using rev_ind.
  - apply app_inj_tail in E as [-> ->]. split; [lia|]. intros f' F1 _ _. exists f'. split; auto. apply more_deleted_refl.
  - change (e0 :: h2 ++ [x]) with ((e0 :: h2) ++ [x]) in E. rewrite app_assoc in E. apply app_inj_tail in E as [-> ->].
    pose proof (proj1 (indexed_snoc _ _ _ I0)) as I1.
    assert (exists le, last_entry (h1 ++ e0 :: h2) = Some le) as [le El].
    { destruct (latest (h1 ++ e0 :: h2)) as [m|] eqn:L; [destruct (latest_last _ _ L) as [le [? _]]; eauto|]. apply latest_None in L. destruct h1; discriminate. }
    assert (Hle : In le (e0 :: h2)).
    { destruct h2 as [|y h2 _] using rev_ind; [rewrite last_snoc in El; injection El as <-; now left|].
      change (e0 :: h2 ++ [y]) with ((e0 :: h2) ++ [y]) in *. rewrite app_assoc, last_snoc in El. injection El as <-. apply in_app_iff. right. now left. }
    destruct (IH I1 h1 e0 h2 le eq_refl El) as [P1 P2].
    + intros a b y Hy. apply Hc. apply in_app_iff. now left.
    + intros y Hy. apply He. destruct Hy as [<-|Hy]; [now left|]. right. apply in_app_iff. now left.
    + assert (Hx : conflicts_with (CreateIndex [] []) (t_op (e_txn x)) = false) by (apply Hc, in_app_iff; right; now left).
      assert (Hr : is_reset (t_op (e_txn x)) = false) by (destruct (t_op (e_txn x)); cbn in *; auto; discriminate).
      assert (Hnr : forall gs rw, t_op (e_txn x) <> Rewrite gs rw) by (intros gs rw C; rewrite C in Hx; discriminate).
      pose proof (indexed_snoc _ _ _ I0) as [_ [G _]]. destruct (good_built _ _ _ G El Hr) as [sch [nr [fs [nr' [_ [_ [_ [_ [_ [Hm _]]]]]]]]]].
      split; [lia|]. intros f' F1 F2 F3. destruct (step_frags _ _ _ _ _ I0 El Hr Hnr F1) as [[f [K1 [K2 _]]]|[K|[K|[K1 K2]]]].
      * assert (f_id f' = f_id f) as Ei by apply K2. rewrite Ei in *. destruct (P2 f K1 F2 F3) as [f0 [Q1 Q2]]. exists f0. split; auto. eapply more_deleted_trans; eauto.
      * exfalso. apply K. change (e0 :: h2) with ([e0] ++ h2). rewrite app_assoc. now apply used_mono.
      * exfalso. lia.
      * exfalso. apply (He le); auto. destruct Hle as [<-|Hle]; [now left|]. right. apply in_app_iff. now left.
Qed.

(* ---- what a Rewrite finds of the indices it remapped ---- *)
Lemma recalc_sound_used : forall w h e le gs rw b b' i, indexed w (h ++ [e]) -> last_entry h = Some le -> t_op (e_txn e) = Rewrite gs rw ->
  recalculate_fragment_bitmap b gs = BOk b' -> In i b' -> used h i -> In i b.
Proof.
  intros w h e le gs rw b b' i I0 El Eo R Hi U. destruct (rewrite_frags _ _ _ _ _ _ I0 El Eo) as [_ [Hn _]].
  destruct (recalc_sound _ _ _ _ _ R Hi) as [C|[g [n [G1 [G2 [G3 _]]]]]]; auto. exfalso.
  destruct (Hn (f_id n)) as [N1 [_ N2]]; [apply new_of_In; eauto|]. apply N1.
  apply indexed_snoc in I0 as [[G _] _]. pose proof (history_wf _ G le (last_In _ _ El)) as W. rewrite u32_id in G3 by (destruct W as [_ [_ W]]; lia). now rewrite G3.
Qed.
Lemma start_next_mode : forall m c nr, start_next_row (Some m) c = BOk nr -> match nr with Some _ => uses_stable m = true | None => uses_stable m = false end.
Proof. intros m c nr H. unfold start_next_row in H. destruct (uses_stable m); [injection H as <-; auto|]. destruct (wc_stable c); [discriminate|]. now injection H as <-. Qed.

(* the indices of the version before, for all operations but resets *)
Lemma step_indices : forall w h e le, indexed w (h ++ [e]) -> last_entry h = Some le -> is_reset (t_op (e_txn e)) = false -> NoDup (map ix_uuid (e_idx le)) ->
  NoDup (map ix_uuid (e_idx e)) /\
  (forall u, In u (map ix_uuid (e_idx e)) -> In u (map ix_uuid (e_idx le)) \/ fresh_uuid h u) /\
  match t_op (e_txn e) with
  | Rewrite gs rw =>
      if uses_stable (e_man le)
      then forall ix', In ix' (e_idx e) -> exists ix, In ix (e_idx le) /\ ix_uuid ix' = ix_uuid ix /\ ix_fields ix' = ix_fields ix /\
             forall b', ix_bitmap ix' = Some b' -> exists b, ix_bitmap ix = Some b /\ recalculate_fragment_bitmap b gs = BOk b'
      else (forall r, In r rw -> In (rw_old r) (map ix_uuid (e_idx le))) /\
           forall ix', In ix' (e_idx e) -> (In ix' (e_idx le) /\ ~ In (ix_uuid ix') (map rw_old rw)) \/
             exists ix r, In ix (e_idx le) /\ In r rw /\ ix_uuid ix = rw_old r /\ remapped gs ix ix' (rw_new r)
  | CreateIndex news _ => forall ix', In ix' (e_idx e) -> In ix' (e_idx le) \/ In ix' news
  | _ => forall ix', In ix' (e_idx e) -> In ix' (e_idx le)
  end.
Proof.
  intros w h e le I0 El Hr Hn. apply indexed_snoc in I0 as [I0 [G [Hw _]]]. destruct (good_built _ _ _ G El Hr) as [sch [nr [fs [nr' [_ [E2 [E3 _]]]]]]].
  assert (Fil : forall p, NoDup (map ix_uuid (filter p (e_idx le))) /\ forall ix, In ix (filter p (e_idx le)) -> In ix (e_idx le)).
  { intros p. split; [|intros ix Hi; now apply filter_In in Hi]. clear - Hn. induction (e_idx le) as [|x t IH]; [constructor|]. inversion Hn; subst. cbn [filter]. destruct (p x); auto.
    cbn [map]. constructor; auto. intros C. apply H1. apply in_map_iff in C as [y [C1 C2]]. apply filter_In in C2 as [C2 _]. rewrite <- C1. now apply in_map. }
  assert (Ret : forall s l, NoDup (map ix_uuid (retain_relevant_indices (e_idx le) s l)) /\ forall ix, In ix (retain_relevant_indices (e_idx le) s l) -> In ix (e_idx le)).
  { intros s l. unfold retain_relevant_indices.
    assert (forall (p q : index -> bool) l, filter p (filter q l) = filter (fun x => q x && p x) l) as FF.
    { clear. intros p q l. induction l as [|x t IH]; auto. cbn [filter]. destruct (q x); cbn [filter andb]; [destruct (p x); now rewrite IH|auto]. }
    rewrite FF. apply Fil. }
  assert (Map : forall ixs, (forall ix, In ix ixs -> In ix (e_idx le)) -> forall u, In u (map ix_uuid ixs) -> In u (map ix_uuid (e_idx le)) \/ fresh_uuid h u).
  { intros ixs H u Hu. left. apply in_map_iff in Hu as [ix [<- Hi]]. apply in_map. auto. }
  destruct (t_op (e_txn e)) eqn:Eo; cbn [is_reset apply_op] in *; try discriminate.
  - apply bbind_ok in E3 as [[new n0] [R1 R2]]. injection R2 as _ <- _. repeat split; auto.
  - injection E3 as _ <- _. split; [apply Ret|]. split; [apply Map|]; apply Ret.
  - injection E3 as _ <- _. unfold writer_honest in Hw. rewrite Eo in Hw. destruct Hw as [W1 [W2 _]].
    match goal with |- context [filter ?p (e_idx le)] => destruct (Fil p) as [F1 F2]; set (kept := filter p (e_idx le)) in * end. split; [|split].
    + rewrite map_app. apply NoDup_app_iff'. split; auto. split; auto. intros u U1 U2. apply in_map_iff in U1 as [a [<- A2]]. apply in_map_iff in U2 as [b [B1 B2]].
      apply (W2 b B2 le a); auto. now apply last_In.
    + intros u Hu. rewrite map_app in Hu. apply in_app_iff in Hu as [Hu|Hu]; [now apply (Map _ F2)|]. right. apply in_map_iff in Hu as [b [<- B2]]. auto.
    + intros ix' Hi. apply in_app_iff in Hi as [Hi|Hi]; auto.
  - apply bbind_ok in E3 as [[fs2 nx] [H1 H2]]. apply bbind_ok in H2 as [ix2 [H2 H3]]. injection H3 as _ <- _.
    unfold writer_honest in Hw. rewrite Eo in Hw. destruct Hw as [e0 [V [_ [_ [m [M1 M2]]]]]]. rewrite (last_latest _ _ El) in M1. injection M1 as <-.
    apply start_next_mode in E2. destruct nr as [n|]; rewrite E2 in *.
    + destruct (recalc_all_spec _ _ _ H2) as [R1 R2]. rewrite R1. repeat split; auto.
    + destruct M2 as [[M2 _]|[_ [M3 [M4 [M5 _]]]]]; [discriminate|].
      destruct (rewrite_indices_spec _ _ _ _ _ H2 Hn M3) as [R1 [R2 [R3 R4]]].
      * intros r Hr0 C. apply in_map_iff in C as [ix [C1 C2]]. apply (M4 r Hr0 le ix); auto. now apply last_In.
      * intros r r' H3 H4 E. destruct (M5 r' H4) as [ix [X1 X2]]. apply (M4 r H3 e0 ix); auto; [now apply version_In in V|congruence].
      * split; auto. split; [|split; auto]. intros u Hu. destruct (R2 u Hu) as [C|C]; auto. right. apply in_map_iff in C as [r [<- C2]]. auto.
  - destruct (negb (same_fields replacements)); [discriminate|]. apply bbind_ok in E3 as [new [R1 R2]]. injection R2 as _ <- _. repeat split; auto.
  - injection E3 as _ <- _. split; [apply Ret|]. split; [apply Map|]; apply Ret.
  - injection E3 as _ <- _. repeat split; auto.
  - apply bbind_ok in E3 as [[new n0] [R1 R2]]. injection R2 as _ <- _. split; [apply Ret|]. split; [apply Map|]; apply Ret.
  - injection E3 as _ <- _. split; [apply Ret|]. split; [apply Map|]; apply Ret.
  - injection E3 as _ <- _. repeat split; auto.
Qed.

Lemma rewrite_interval : forall w h, indexed w h -> invs w h -> forall gs rw h1 e0 h2 le, h = h1 ++ e0 :: h2 -> last_entry h = Some le ->
  (forall e, In e h2 -> conflicts_with (Rewrite gs rw) (t_op (e_txn e)) = false) ->
  forall ix', In ix' (e_idx le) -> exists ix, In ix (e_idx e0) /\
    (forall b' i, ix_bitmap ix' = Some b' -> In i b' -> used (h1 ++ [e0]) i -> exists b, ix_bitmap ix = Some b /\ In i b) /\
    (ix_uuid ix' = ix_uuid ix \/ ~ In (ix_uuid ix) (map ix_uuid (e_idx le))).
Proof.
  intros w. induction h as [|e h IH] using rev_ind; intros I0 J gs rw h1 e0 h2 le E El Hc; [discriminate|].
  rewrite last_snoc in El. injection El as <-. destruct h2 as [|x h2 _] using rev_ind.
  - apply app_inj_tail in E as [-> ->]. intros ix' Hi. exists ix'. split; auto. split; eauto.
  - change (e0 :: h2 ++ [x]) with ((e0 :: h2) ++ [x]) in E. rewrite app_assoc in E. apply app_inj_tail in E as [-> ->].
    pose proof (proj1 (indexed_snoc _ _ _ I0)) as I1. pose proof (invs_prefix _ _ _ J) as J1.
    assert (exists le, last_entry (h1 ++ e0 :: h2) = Some le) as [le El].
    { destruct (latest (h1 ++ e0 :: h2)) as [m|] eqn:L; [destruct (latest_last _ _ L) as [le [? _]]; eauto|]. apply latest_None in L. destruct h1; discriminate. }
    assert (IH1 : forall ix', In ix' (e_idx le) -> exists ix, In ix (e_idx e0) /\
      (forall b' i, ix_bitmap ix' = Some b' -> In i b' -> used (h1 ++ [e0]) i -> exists b, ix_bitmap ix = Some b /\ In i b) /\
      (ix_uuid ix' = ix_uuid ix \/ ~ In (ix_uuid ix) (map ix_uuid (e_idx le)))).
    { apply (IH I1 J1 gs rw h1 e0 h2 le eq_refl El). intros y Hy. apply Hc. apply in_app_iff. now left. }
    clear IH. assert (Hx : conflicts_with (Rewrite gs rw) (t_op (e_txn x)) = false) by (apply Hc, in_app_iff; right; now left).
    assert (Hr : is_reset (t_op (e_txn x)) = false) by (destruct (t_op (e_txn x)); cbn in *; auto; discriminate).
    destruct (invs_last _ _ _ J1 El) as [_ Hn]. destruct (step_indices _ _ _ _ I0 El Hr Hn) as [S1 [S2 S3]].
    assert (Fr : forall ix u, In ix (e_idx e0) -> fresh_uuid (h1 ++ e0 :: h2) u -> ix_uuid ix <> u).
    { intros ix u Hi Hf. apply (Hf e0 ix); auto. apply in_app_iff. right. now left. }
    assert (Gone : forall ix, In ix (e_idx e0) -> ~ In (ix_uuid ix) (map ix_uuid (e_idx le)) -> ~ In (ix_uuid ix) (map ix_uuid (e_idx x))).
    { intros ix Hi Hg C. destruct (S2 _ C) as [C2|C2]; auto. now apply (Fr ix _ Hi C2). }
    assert (U : forall i, used (h1 ++ [e0]) i -> used (h1 ++ e0 :: h2) i).
    { intros i Hu. change (e0 :: h2) with ([e0] ++ h2). rewrite app_assoc. now apply used_mono. }
    assert (Old : forall ix', In ix' (e_idx le) -> exists ix, In ix (e_idx e0) /\
      (forall b' i, ix_bitmap ix' = Some b' -> In i b' -> used (h1 ++ [e0]) i -> exists b, ix_bitmap ix = Some b /\ In i b) /\
      (ix_uuid ix' = ix_uuid ix \/ ~ In (ix_uuid ix) (map ix_uuid (e_idx x)))).
    { intros ix' Hi. destruct (IH1 ix' Hi) as [ix [X1 [X2 X3]]]. exists ix. split; auto. split; auto. destruct X3 as [X3|X3]; auto. }
    destruct (t_op (e_txn x)) eqn:Eo; try discriminate; try (intros ix' Hi; apply Old, S3, Hi).
    destruct (uses_stable (e_man le)).
    + intros ix' Hi. destruct (S3 ix' Hi) as [ix1 [Y1 [Y2 [Y3 Y4]]]]. destruct (Old ix1 Y1) as [ix [X1 [X2 X3]]]. exists ix. split; auto. split; [|now rewrite Y2].
      intros b' i Hb Hib Hu. destruct (Y4 b' Hb) as [b1 [B1 B2]]. eapply X2; eauto. eapply recalc_sound_used; eauto.
    + destruct S3 as [S3 S4]. intros ix' Hi. destruct (S4 ix' Hi) as [[Y1 Y2]|[ix1 [r [Y1 [Y2 [Y3 [Y4 [Y5 [b1 [b2 [Y6 [Y7 Y8]]]]]]]]]]]]; [now apply Old|].
      destruct (Old ix1 Y1) as [ix [X1 [X2 X3]]]. exists ix. split; auto. split.
      * intros b' i Hb Hib Hu. rewrite Y7 in Hb. injection Hb as <-. eapply X2; eauto. eapply recalc_sound_used; eauto.
      * right. destruct X3 as [X3|X3]; auto. intros C. apply in_map_iff in C as [ix2 [C1 C2]].
        pose proof (indexed_snoc _ _ _ I0) as [_ [_ [Hw _]]]. unfold writer_honest in Hw. rewrite Eo in Hw. destruct Hw as [e1 [_ [_ [_ [m [M1 M2]]]]]].
        rewrite (last_latest _ _ El) in M1. injection M1 as <-. 
        assert (Hf : forall r, In r rewritten -> fresh_uuid (h1 ++ e0 :: h2) (rw_new r)).
        { destruct M2 as [[_ [-> _]]|[_ [_ [M3 _]]]]; [intros ? []|auto]. }
        destruct (S4 ix2 C2) as [[Z1 Z2]|[ix3 [r3 [Z1 [Z2 [Z3 [Z4 _]]]]]]].
        -- apply Z2. rewrite C1, <- X3, Y3. now apply in_map.
        -- apply (Fr ix (rw_new r3) X1); auto. congruence.
Qed.

(* ---- one Rewrite ---- *)
Lemma gone_same : forall w a b off, same_deletions a b -> (gone w b off <-> gone w a off).
Proof. intros w a b off [H1 [H2 _]]. unfold gone. now rewrite H1, H2. Qed.
Lemma unmoved : forall w mv u u' zs f, (forall off, f_rowids f = None -> mv (RAddr (f_id f) off) = Some (RAddr (f_id f) off)) -> (forall x, mv (RId x) = Some (RId x)) ->
  (forall a a' v, w_entry w u a v -> mv a = Some a' -> w_entry w u' a' v) -> has_rows w u zs f -> has_rows w u' zs f.
Proof.
  intros w mv u u' zs f M1 M2 M3 H off L. destruct (H off L) as [a [A1 A2]]. exists a. split; auto. apply (M3 a); auto.
  unfold row_ref in A1. destruct (f_rowids f) eqn:E.
  - destruct (nth_error l _); [|discriminate]. injection A1 as <-. auto.
  - injection A1 as <-. now apply M1.
Qed.
(* ids listed before and not rewritten *)
Lemma rewrite_kept_ok : forall w h e le gs rw ix b i mv u', indexed w (h ++ [e]) -> last_entry h = Some le -> t_op (e_txn e) = Rewrite gs rw ->
  lists_ok w h (e_man le) ix -> ix_bitmap ix = Some b -> In i b -> ~ In i (old_of gs) ->
  (forall i off, ~ In i (old_of gs) -> mv (RAddr i off) = Some (RAddr i off)) -> (forall x, mv (RId x) = Some (RId x)) ->
  (forall a a' v, w_entry w (ix_uuid ix) a v -> mv a = Some a' -> w_entry w u' a' v) ->
  used (h ++ [e]) i /\ i <= m_max (e_man e) /\ (i = 0 -> ~ emptied (e_man e)) /\
  forall f, In f (m_fragments (e_man e)) -> f_id f = i -> has_rows w u' (ix_fields ix) f.
Proof.
  intros w h e le gs rw ix b i mv u' I0 El Eo [L1 L2] Hb Hi Hno M1 M2 M3. destruct (L2 b i Hb Hi) as [U [Le [K Hr]]].
  destruct (rewrite_frags _ _ _ _ _ _ I0 El Eo) as [R1 [R2 [R3 R4]]].
  pose proof (indexed_snoc _ _ _ I0) as [_ [G _]]. assert (is_reset (t_op (e_txn e)) = false) as Hrs by now rewrite Eo.
  destruct (good_built _ _ _ G El Hrs) as [_ [_ [_ [_ [_ [_ [_ [_ [_ [Hm _]]]]]]]]]].
  pose proof (history_wf _ (good_prefix _ _ G) le (last_In _ _ El)) as W1.
  split; [now apply used_mono|]. split; [lia|]. split.
  - intros -> [Em1 Em2]. apply (K eq_refl). split; [|lia]. destruct (m_fragments (e_man le)) as [|f t] eqn:Ef; auto. exfalso.
    assert (Hf : In f (m_fragments (e_man le))) by (rewrite Ef; now left).
    assert (f_id f = 0). { destruct W1 as [_ [W1 _]]. specialize (W1 (f_id f) (in_map _ _ _ Hf)). lia. }
    assert (In f (m_fragments (e_man e))) as C. { apply R1; left; rewrite H; split; auto; now left. } rewrite Em1 in C. destruct C.
  - intros f Hf Ei. apply R1 in Hf as [[Hf Hn]|[g [G1 G2]]].
    + apply (unmoved w mv (ix_uuid ix)); auto.
    + exfalso. destruct (R2 (f_id f)) as [C _]; [apply new_of_In; eauto|]. apply C. now rewrite Ei.
Qed.
(* all ids of a recalculated bitmap *)
Lemma rewrite_recalc_ok : forall w h e le e0 gs rw ix b b' i mv u', indexed w (h ++ [e]) -> last_entry h = Some le -> t_op (e_txn e) = Rewrite gs rw ->
  version_entry h (t_read (e_txn e)) = Some e0 -> (forall g o, In g gs -> In o (rg_old g) -> In o (m_fragments (e_man e0))) ->
  lists_ok w h (e_man le) ix -> ix_bitmap ix = Some b -> recalculate_fragment_bitmap b gs = BOk b' -> In i b' ->
  (forall i off, ~ In i (old_of gs) -> mv (RAddr i off) = Some (RAddr i off)) -> (forall x, mv (RId x) = Some (RId x)) ->
  (forall a a' v, w_entry w (ix_uuid ix) a v -> mv a = Some a' -> w_entry w u' a' v) ->
  (forall g, In g gs -> moved w mv (field_ids (m_schema (e_man e0))) g) ->
  used (h ++ [e]) i /\ i <= m_max (e_man e) /\ (i = 0 -> ~ emptied (e_man e)) /\
  forall f, In f (m_fragments (e_man e)) -> f_id f = i -> has_rows w u' (ix_fields ix) f.
Proof.
  intros w h e le e0 gs rw ix b b' i mv u' I0 El Eo V Ho Lx Hb Hrec Hi M1 M2 M3 Mv.
  destruct (rewrite_frags _ _ _ _ _ _ I0 El Eo) as [R1 [R2 [R3 R4]]].
  pose proof (indexed_snoc _ _ _ I0) as [I1 [G _]]. pose proof (history_wf _ (good_prefix _ _ G) le (last_In _ _ El)) as W1.
  assert (Hs : forall i, In i (old_of gs) \/ In i (new_of gs) -> i < two32).
  { intros j [Hj|Hj]; destruct W1 as [_ [W1 W2]]; [apply R3 in Hj; specialize (W1 j Hj); lia|]. apply R2 in Hj. lia. }
  assert (Hd : forall i, In i (new_of gs) -> ~ In i (old_of gs)).
  { intros j Hj C. apply R3 in C. apply R2 in Hj as [Hj _]. apply Hj. exists le. split; auto. now apply last_In. }
  destruct (recalculate_exact b gs Hs Hd) as [X1 X2]. destruct (proj1 (X2 b' Hrec i) Hi) as [[C1 C2]|[g [o [n [G1 [G2 [G3 [G4 G5]]]]]]]].
  - eapply rewrite_kept_ok; eauto.
  - assert (Hn : In n (m_fragments (e_man e))) by (apply R1; right; eauto).
    assert (We : man_wf (e_man e)) by (apply (history_wf _ G), in_app_iff; right; now left).
    split; [exists e; split; [apply in_app_iff; right; now left|rewrite <- G5; now apply in_map]|].
    split; [rewrite <- G5; apply We; now apply in_map|]. split; [intros ->; exfalso; destruct (R2 (f_id n)) as [_ [C _]]; [apply new_of_In; eauto|auto]|].
    intros f Hf Ei. assert (f = n) as -> by (apply (frag_unique (e_man e)); auto; congruence). clear Hf Ei.
    assert (All : forall o', In o' (rg_old g) -> In (f_id o') b) by (intros o' Ho'; apply (proj1 X1 (ex_intro _ b' Hrec) g o o'); auto).
    destruct Lx as [L1 L2].
    destruct (keep_sources w h e (e_man e0) (e_man le) I1 G) as [K1 K2]; [rewrite Eo; exact I|unfold man_at; now rewrite V|now apply last_latest|].
    intros off Hl. destruct (Mv g G1 n off G4 Hl) as [o' [off' [a [a' [O1 [O2 [O3 [O4 [O5 O6]]]]]]]]].
    destruct (K2 o' (Ho g o' G1 O1)) as [f1 [F1 [F2 F3]]]; [rewrite Eo; cbn; eauto|].
    assert (Hf1 : has_rows w (ix_uuid ix) (ix_fields ix) f1).
    { destruct (L2 b (f_id o') Hb (All o' O1)) as [_ [_ [_ L3]]]. apply L3; auto. apply F2. }
    destruct (Hf1 off') as [a1 [A1 A2]].
    + destruct O2 as [[k [N1 N2]] N3]. split; [exists k; split; auto; destruct F2 as [_ [_ [_ ->]]]; auto|]. rewrite (gone_same w o' f1) by auto. exact N3.
    + assert (a1 = a) as ->. { unfold row_ref in *. destruct F2 as [Y1 [_ [Y2 _]]]. rewrite Y1, Y2 in A1. congruence. }
      exists a'. split; auto. apply (M3 a); auto. rewrite O6 by (eapply incl_tran; eauto).
      rewrite <- (sources_ext (ix_fields ix) o' f1); auto.
Qed.

Lemma filter_nonempty_retain : forall ixs s fs ix b, In ix (retain_relevant_indices ixs s fs) -> ix_bitmap ix = Some b -> fs <> [].
Proof.
  intros ixs s fs ix b H Hb ->. unfold retain_relevant_indices in H. apply filter_In in H as [_ H]. rewrite Hb in H. apply existsb_exists in H as [i [_ H]]. discriminate.
Qed.
Lemma retain_fields : forall ixs s fs ix, In ix (retain_relevant_indices ixs s fs) -> incl (ix_fields ix) (field_ids s).
Proof.
  intros ixs s fs ix H z Hz. unfold retain_relevant_indices in H. apply filter_In in H as [H _]. apply filter_In in H as [_ H].
  rewrite forallb_forall in H. apply memZ_In. auto.
Qed.
(* an operation that leaves nothing drops all indices that list something *)
Lemma step_nonempty : forall h e le ix b, good (h ++ [e]) -> last_entry h = Some le -> is_reset (t_op (e_txn e)) = false -> (forall gs rw, t_op (e_txn e) <> Rewrite gs rw) ->
  In ix (e_idx e) -> ix_bitmap ix = Some b -> (forall news removed, t_op (e_txn e) = CreateIndex news removed -> m_fragments (e_man le) <> []) -> m_fragments (e_man le) <> [] -> m_fragments (e_man e) <> [].
Proof.
  intros h e le ix b G El Hr Hnr Hi Hb Hci Hne Em. destruct (good_built _ _ _ G El Hr) as [sch [nr [fs [nr' [_ [_ [E3 [_ [_ [_ E6]]]]]]]]]]. apply E6 in Em. subst fs.
  destruct (t_op (e_txn e)) eqn:Eo; cbn [is_reset apply_op] in *; try discriminate.
  - apply bbind_ok in E3 as [[new n0] [R1 R2]]. injection R2 as R2 _ _. apply app_eq_nil in R2 as [R2 _]. auto.
  - injection E3 as R1 R2 _. rewrite <- R2 in Hi. eapply filter_nonempty_retain; eauto.
  - injection E3 as R1 _ _. eapply Hci; eauto.
  - exfalso. eapply Hnr; eauto.
  - destruct (negb (same_fields replacements)); [discriminate|]. apply bbind_ok in E3 as [new [R1 R2]]. injection R2 as R2 _ _. apply app_eq_nil in R2 as [-> R3].
    destruct replacements as [|[i nf] t]; cbn [replace_all] in R1.
    + rewrite filter_all_true in R3; auto.
    + destruct (find_fragment _ i); [|discriminate]. apply bbind_ok in R1 as [a [_ R1]]. apply bbind_ok in R1 as [c [_ R1]]. discriminate.
  - injection E3 as -> R2 _. rewrite <- R2 in Hi. eapply filter_nonempty_retain; eauto.
  - injection E3 as R1 _ _. auto.
  - apply bbind_ok in E3 as [[new n0] [R1 R2]]. injection R2 as R2 R3 _. rewrite <- R3 in Hi. eapply filter_nonempty_retain; eauto.
  - injection E3 as R1 R2 _. rewrite <- R2 in Hi. eapply filter_nonempty_retain; eauto.
  - injection E3 as R1 _ _. auto.
Qed.
Lemma step_fields : forall h e le ix, good (h ++ [e]) -> last_entry h = Some le -> is_reset (t_op (e_txn e)) = false -> In ix (e_idx e) ->
  incl (ix_fields ix) (field_ids (m_schema (e_man le))) -> incl (ix_fields ix) (field_ids (m_schema (e_man e))).
Proof.
  intros h e le ix G El Hr Hi Hf. destruct (good_built _ _ _ G El Hr) as [sch [nr [fs [nr' [E1 [_ [E3 [_ [E5 _]]]]]]]]]. rewrite E5.
  destruct (t_op (e_txn e)) eqn:Eo; cbn [is_reset apply_op op_schema] in *; try discriminate; injection E1 as <-; auto.
  - injection E3 as R1 R2 _. rewrite <- R2 in Hi. eapply retain_fields; eauto.
  - injection E3 as R1 R2 _. rewrite <- R2 in Hi. eapply retain_fields; eauto.
Qed.

(* ---- the invariant is kept ---- *)
Theorem coverage_kept : forall w h, indexed w h -> invs w h.
Proof.
  intros w. induction h as [|e h IH] using rev_ind; intros I0.
  - intros h1 e h2 E. destruct h1; discriminate.
  - pose proof (indexed_snoc _ _ _ I0) as [I1 [G [Hw He]]]. specialize (IH I1).
    assert (New : inv w (h ++ [e]) e).
    2: { intros h1 e1 h2 E. destruct h2 as [|x h2 _] using rev_ind; [apply app_inj_tail in E as [-> ->]; exact New|].
         change (e1 :: h2 ++ [x]) with ((e1 :: h2) ++ [x]) in E. rewrite app_assoc in E. apply app_inj_tail in E as [-> _]. now apply (IH h1 e1 h2). }
    destruct (last_entry h) as [le|] eqn:El.
    2: { assert (h = []) as -> by (apply latest_None; unfold latest; now rewrite El). clear El. destruct (good_commit _ _ G) as [file C].
         assert (e_idx e = []) as Ei.
         { apply commit_inv in C as [[v [le [old [_ [E _]]]]]|[m0 [E1 _]]]; [discriminate|]. apply build_inv in E1 as [sch [nr [fs [nr' [_ [_ [B _]]]]]]].
           cbn [last_entry nth_error length latest option_map] in B. destruct (t_op (e_txn e)); cbn [apply_op] in B; try discriminate.
           - apply bbind_ok in B as [[new n0] [_ B]]. now injection B as _ <- _.
           - destruct (negb (same_fields replacements)); discriminate.
           - now injection B as _ <- _. }
         split; rewrite Ei; [intros ? []|constructor]. }
    destruct (is_reset (t_op (e_txn e))) eqn:Hr.
    + destruct (good_commit _ _ G) as [file C]. destruct (t_op (e_txn e)) eqn:Eo; try discriminate.
      * apply commit_inv in C as [[v [le' [old [E _]]]]|[m0 [E1 _]]]; [congruence|]. apply build_inv in E1 as [sch0 [nr [fs [nr' [_ [_ [B _]]]]]]].
        rewrite Eo in B. cbn [apply_op] in B. apply bbind_ok in B as [[new n0] [_ B]]. injection B as _ Ei _. split; rewrite <- Ei; [intros ? []|constructor].
      * apply commit_inv in C as [[v [le' [old [E [_ [V [Ei F]]]]]]]|[m0 [_ [_ E]]]]; [|exfalso; now apply (E version)].
        destruct (version_split _ _ _ V) as [h1 [h2 [Eh _]]]. destruct (IH h1 old h2 Eh) as [J1 J2].
        pose proof (history_wf _ (good_prefix _ _ G) old (version_In _ _ _ V)) as Wo. pose proof (finish_inv _ _ _ F) as [F1 [_ [F3 [_ [_ [_ [_ [F8 _]]]]]]]].
        cbn [set_version m_fragments m_schema m_max] in F1, F3, F8.
        assert (Em : m_max (e_man e) = m_max (e_man old)).
        { rewrite F8. assert (maxN (map f_id (m_fragments (e_man old))) <= m_max (e_man old)); [|lia]. apply maxN_le. apply Wo. }
        split; rewrite Ei; auto. intros ix Hi. destruct (J1 ix Hi) as [K1 K2]. split; [now rewrite F3|]. intros b i Hb Hib. destruct (K2 b i Hb Hib) as [U [Le [K3 K4]]].
        split; [apply used_mono; rewrite Eh; change (old :: h2) with ([old] ++ h2); rewrite app_assoc; now apply used_mono|].
        rewrite Em, F1. split; auto. split; auto. intros Hz [Z1 Z2]. apply (K3 Hz). split; congruence.
    + pose proof (invs_last _ _ _ IH El) as [J1 J2]. destruct (step_indices _ _ _ _ I0 El Hr J2) as [S1 [_ S3]]. split; auto.
      destruct (good_built _ _ _ G El Hr) as [_ [_ [_ [_ [_ [_ [_ [_ [_ [Hm _]]]]]]]]]].
      assert (Old : (forall gs rw, t_op (e_txn e) <> Rewrite gs rw) -> forall ix, In ix (e_idx e) -> In ix (e_idx le) -> lists_ok w (h ++ [e]) (e_man e) ix).
      { intros Hnr ix Hi Hi2. destruct (J1 ix Hi2) as [K1 K2]. pose proof (step_fields _ _ _ _ G El Hr Hi K1) as K1'. split; auto.
        intros b i Hb Hib. destruct (K2 b i Hb Hib) as [U [Le [K3 K4]]]. split; [now apply used_mono|]. split; [lia|]. split.
        - intros -> [Z1 Z2]. assert (m_fragments (e_man le) <> []) as Hne by (intros C; apply (K3 eq_refl); split; auto; lia).
          revert Z1. eapply step_nonempty; eauto.
        - intros f' Hf' Ei. destruct (step_frags _ _ _ _ _ I0 El Hr Hnr Hf') as [[f [Q1 [Q2 Q3]]]|[Q|[Q|[Q1 Q2]]]].
          + apply (carry_has_rows w _ _ f); [|apply K4; auto; destruct Q2 as [Q2 _]; congruence]. split; auto. intros z Hz. apply (Q3 ix); auto.
          + exfalso. apply Q. now rewrite Ei.
          + exfalso. lia.
          + exfalso. apply K3; auto. congruence. }
      destruct (t_op (e_txn e)) eqn:Eo; try discriminate; try (intros ix Hi; apply Old; auto; intros ? ? ?; discriminate).
      * intros ix Hi. destruct (S3 ix Hi) as [Hi2|Hi2]; [apply Old; auto; intros ? ? ?; discriminate|].
        unfold writer_honest in Hw. rewrite Eo in Hw. destruct Hw as [_ [_ [e0 [V Hw]]]]. destruct (Hw ix Hi2) as [W1 W2].
        unfold enough_checked in He. rewrite Eo in He. destruct He as [He1 He2].
        assert (Man0 : man_at h (t_read (e_txn e)) = Some (e_man e0)) by (unfold man_at; now rewrite V).
        pose proof (last_latest _ _ El) as L.
        destruct (good_built _ _ _ G El) as [sch [nr [fs [nr' [B1 [_ [B3 [B4 [B5 _]]]]]]]]]; [now rewrite Eo|]. rewrite Eo in B1, B3. cbn in B1, B3. injection B1 as <-. injection B3 as <- _ _.
        split; [intros z Hz; rewrite B5; eapply He2; eauto|].
        destruct (version_split _ _ _ V) as [h1 [h2 [Eh Ev]]].
        destruct (create_interval w h I1 h1 e0 h2 le Eh El) as [P1 P2].
        { intros a b x Hx. pose proof G as [G0 _]. apply history_snoc in G0 as [_ [_ [Hc _]]]. rewrite Forall_forall in Hc. specialize (Hc x).
          rewrite Eo in Hc. apply Hc. rewrite Eh, Ev, skipn_past. exact Hx. }
        { intros x Hx. destruct Hx as [<-|Hx]; [apply (He1 (t_read (e_txn e))); auto; lia|].
          apply in_split in Hx as [a [b ->]]. apply (He1 (t_read (e_txn e) + N.of_nat (S (length a)))); [lia|]. unfold version_entry.
          destruct (_ =? 0) eqn:Ez; [lia|]. rewrite Eh. rewrite nth_error_app2 by lia.
          replace (N.to_nat (t_read (e_txn e) + N.of_nat (S (length a))) - 1 - length h1)%nat with (S (length a)) by lia. cbn [nth_error].
          rewrite nth_error_app2, Nat.sub_diag by auto. reflexivity. }
        intros b i Hb Hib. destruct (W2 b i Hb Hib) as [Q1 Q2]. destruct (IH h1 e0 h2 Eh) as [J01 J02].
        pose proof (history_wf _ (good_prefix _ _ G) e0 (version_In _ _ _ V)) as W0.
        assert (Hu : used (h1 ++ [e0]) i /\ i <= m_max (e_man e0)).
        { destruct Q1 as [Q1|[ix' [b' [X1 [X2 X3]]]]].
          - split; [exists e0; split; auto; apply in_app_iff; right; now left|now apply W0].
          - destruct (J01 ix' X1) as [_ J]. destruct (J b' i X2 X3) as [J3 [J4 _]]. auto. }
        destruct Hu as [Hu1 Hu2]. split.
        { apply used_mono. rewrite Eh. change (e0 :: h2) with ([e0] ++ h2). rewrite app_assoc. now apply used_mono. }
        split; [lia|]. split.
        { intros _ [Z1 Z2]. apply (He1 (N.of_nat (length h)) le); [|now apply last_version|].
          - rewrite Eh, app_length. cbn [length]. lia.
          - split; [|lia]. destruct (m_fragments (e_man le)) as [|f t] eqn:Ef; auto. exfalso. specialize (B4 f). rewrite Z1 in B4. apply B4. now left. }
        { intros f' Hf' Ei. apply B4 in Hf'. destruct (P2 f' Hf') as [f [Y1 Y2]]; rewrite ?Ei; auto.
          apply (carry_has_rows w _ _ f); [|apply Q2; auto; destruct Y2 as [Y2 _]; congruence].
          split; auto. intros z Hz. destruct (He2 _ _ _ _ Man0 L Hi2 Hz) as [_ Hs]. apply Hs; auto. apply Y2. }
      * pose proof Hw as Hw'. unfold writer_honest in Hw. rewrite Eo in Hw. destruct Hw as [e0 [V [Ho [_ [m [M1 M2]]]]]].
        rewrite (last_latest _ _ El) in M1. injection M1 as <-.
        assert (Fld : forall ix, incl (ix_fields ix) (field_ids (m_schema (e_man le))) -> incl (ix_fields ix) (field_ids (m_schema (e_man e)))).
        { intros ix H. destruct (good_commit _ _ G) as [file C]. pose proof (schema_kept _ _ _ _ _ _ (e_man le) C) as S. rewrite Eo in S. rewrite (S eq_refl (last_latest _ _ El)). exact H. }
        destruct M2 as [[Ms [-> Mv]]|[Ms [Mn [Mf [Mo [Mc [mv [V1 [V2 [V3 V4]]]]]]]]]]; rewrite Ms in S3.
        -- intros ix' Hi. destruct (S3 ix' Hi) as [ix [X1 [X2 [X3 X4]]]]. split; [rewrite X3; apply Fld, J1, X1|].
           intros b' i Hb Hib. destruct (X4 b' Hb) as [b [Y1 Y2]]. rewrite X2, X3. eapply (rewrite_recalc_ok w h e le e0 groups [] ix b b' i Some); eauto.
           intros a a' v E1 E2. now injection E2 as <-.
        -- destruct S3 as [S3 S4]. intros ix' Hi. destruct (S4 ix' Hi) as [[X1 X2]|[ix [r [X1 [X2 [X3 [X4 [X5 [b [b' [Y1 [Y2 Y3]]]]]]]]]]]].
           ++ split; [apply Fld, J1, X1|]. intros b i Hb Hib.
              eapply (rewrite_kept_ok w h e le groups rewritten ix' b i Some); eauto.
              ** intros Hold. destruct (version_split _ _ _ V) as [h1 [h2 [Eh Ev]]].
                 destruct (rewrite_interval w h I1 IH groups rewritten h1 e0 h2 le Eh El) with (ix' := ix') as [ix0 [Z1 [Z2 Z3]]]; auto.
                 { intros x Hx. pose proof G as [G0 _]. apply history_snoc in G0 as [_ [_ [Hc _]]]. rewrite Forall_forall in Hc. specialize (Hc x).
                   rewrite Eo in Hc. apply Hc. rewrite Eh, Ev, skipn_past. exact Hx. }
                 destruct (Z2 b i Hb Hib) as [b0 [B1 B2]].
                 { apply old_of_In in Hold as [g [o [O1 [O2 <-]]]]. exists e0. split; [apply in_app_iff; right; now left|]. apply in_map. eauto. }
                 destruct (in_dec N.eq_dec (ix_uuid ix0) (map rw_old rewritten)) as [D|D]; [|now apply (Mc ix0 b0 i Z1 D B1 B2)].
                 destruct Z3 as [Z3|Z3]; [apply X2; now rewrite Z3|]. apply Z3. apply in_map_iff in D as [r [D1 D2]]. rewrite <- D1. auto.
              ** intros a a' v E1 E2. now injection E2 as <-.
           ++ split; [rewrite X5; apply Fld, J1, X1|]. intros b2 i Hb Hib. rewrite Y2 in Hb. injection Hb as <-. rewrite X4, X5.
              eapply (rewrite_recalc_ok w h e le e0 groups rewritten ix b b' i mv); eauto.
              intros a a' v E1. rewrite X3 in E1. eapply V3; eauto.
Qed.

Theorem claims_hold : forall w h, good h -> all_entries (writer_honest w) h -> all_entries enough_checked h -> forall e, In e h -> claims_true w e.
Proof.
  intros w h G Hw He e Hin. apply in_split in Hin as [h1 [h2 E]]. destruct (coverage_kept w h (conj G (conj Hw He)) h1 e h2 E) as [J _].
  intros ix Hi. destruct (J ix Hi) as [J1 J2]. split; auto. intros b f Hb Hf Hfb. destruct (J2 b _ Hb Hfb) as [_ [_ [_ J3]]]. auto.
Qed.
