(* C36: what a commit leaves alone, and what cannot have changed under an
   accepted row-changing transaction. *)
From Coq Require Import List Arith NArith ZArith Bool Lia Permutation.
From Coq Require Import ZifyBool ZifyN ZifyNat.
From Verif Require Import Lib AMap TreeMapModel SerdeModel TxnModel TxnSpec TxnLemmas TxnIdsProofs.
Import ListNotations.
Local Open Scope N_scope.

Lemma touches_modified : forall o i, row_op o -> (touches o i <-> In i (modified_fragment_ids o)).
Proof.
  intros o i H. destruct o; cbn in *; try tauto.
  - rewrite in_app_iff, in_map_iff. firstorder.
  - rewrite in_flat_map. split.
    + intros [g [x [H1 [H2 H3]]]]. exists g. split; auto. subst i. now apply in_map.
    + intros [g [H1 H2]]. apply in_map_iff in H2 as [x [H2 H3]]. eauto.
  - rewrite in_app_iff, in_map_iff. firstorder.
Qed.
Lemma modifies_same_spec : forall a b, modifies_same_ids a b = true <-> exists i, In i (modified_fragment_ids a) /\ In i (modified_fragment_ids b).
Proof.
  intros. unfold modifies_same_ids. rewrite existsb_exists. split; intros [i [H1 H2]]; exists i.
  - apply memN_In in H2. auto.
  - split; auto. now apply memN_In.
Qed.
Lemma row_conflict : forall a b, row_op a -> row_op b -> (conflicts_with a b = true <-> exists i, touches a i /\ touches b i).
Proof.
  intros a b Ha Hb.
  assert (conflicts_with a b = modifies_same_ids a b) as -> by (destruct a, b; cbn in *; tauto || reflexivity).
  rewrite modifies_same_spec. split; intros [i [H1 H2]]; exists i; split; apply touches_modified; auto.
Qed.

(* ---- one commit leaves other fragments alone ---- *)
Definition project_files (s : schema) (f : fragment) : fragment :=
  set_files f (filter (fun d => existsb (fun z => memZ z (field_ids s)) (df_fields d)) (f_files f)).
Lemma update_frag_other : forall upd f, (forall u, In u upd -> f_id u <> f_id f) -> update_frag upd f = f.
Proof.
  unfold update_frag. induction upd as [|u t IH]; intros f H; auto. cbn [fold_left].
  destruct (f_id u =? f_id f) eqn:E; [exfalso; apply (H u); [now left|lia]|]. apply IH. intros x Hx. apply H. now right.
Qed.
Lemma find_other : forall upd f, (forall u, In u upd -> f_id u <> f_id f) -> find (fun u => f_id u =? f_id f) upd = None.
Proof.
  induction upd as [|u t IH]; intros f H; auto. cbn [find]. destruct (f_id u =? f_id f) eqn:E; [exfalso; apply (H u); [now left|lia]|].
  apply IH. intros x Hx. apply H. now right.
Qed.
Lemma position_spec : forall {A} (p : A -> bool) l n, position p l = Some n -> exists x, nth_error l n = Some x /\ p x = true.
Proof.
  intros A p. induction l as [|x t IH]; intros n H; [discriminate|]. cbn [position] in H. destruct (p x) eqn:E.
  - injection H as <-. exists x. auto.
  - unfold omap in H. destruct (position p t) as [k|] eqn:E2; [|discriminate]. injection H as <-. apply (IH k eq_refl).
Qed.
Lemma contiguous_spec : forall old fs, contiguous fs old = Some true -> map f_id (firstn (length old) fs) = map f_id old.
Proof.
  induction old as [|o t IH]; intros fs H; [reflexivity|]. destruct fs as [|f fs]; [discriminate|]. cbn [contiguous] in H.
  destruct (f_id f =? f_id o) eqn:E; [|discriminate]. cbn [length firstn map]. f_equal; [lia|auto].
Qed.
(* the run replaced in the contiguous case *)
Lemma splice_run : forall fs o0 olds start, position (fun f => f_id f =? f_id o0) fs = Some start -> contiguous (skipn (S start) fs) olds = Some true ->
  exists run, fs = firstn start fs ++ run ++ skipn (start + length (o0 :: olds)) fs /\ map f_id run = map f_id (o0 :: olds).
Proof.
  intros fs o0 olds start Hp Hc. apply position_spec in Hp as [x [Hx Ex]]. exists (firstn (length (o0 :: olds)) (skipn start fs)). split.
  - rewrite <- skipn_skipn'. now rewrite (firstn_skipn (length (o0 :: olds))), firstn_skipn.
  - apply nth_error_split in Hx as [l1 [l2 [-> L]]]. subst start. rewrite skipn_app, Nat.sub_diag, skipn_all. cbn [skipn app length firstn map].
    replace (S (length l1)) with (length (l1 ++ [x])) in Hc by (rewrite app_length; cbn; lia).
    change (x :: l2) with ([x] ++ l2) in Hc. rewrite app_assoc, skipn_app, skipn_all, Nat.sub_diag in Hc. cbn [skipn app] in Hc.
    apply contiguous_spec in Hc. rewrite Hc. f_equal. lia.
Qed.
Lemma rewrite_frame : forall groups fs next fs' next' f, handle_rewrite_fragments fs groups next = BOk (fs', next') ->
  In f fs -> (forall g o, In g groups -> In o (rg_old g) -> f_id o <> f_id f) -> In f fs'.
Proof.
  induction groups as [|g t IH]; intros fs next fs' next' f H Hf Hn; cbn [handle_rewrite_fragments] in H.
  - now injection H as <- <-.
  - destruct (rg_old g) as [|o0 olds] eqn:Eo; [discriminate|].
    destruct (position (fun f => f_id f =? f_id o0) fs) as [start|] eqn:Ep; [|discriminate].
    destruct (contiguous (skipn (S start) fs) olds) as [c|] eqn:Ec; [|discriminate].
    destruct (fragments_with_ids (rg_new g) next) as [new nx] eqn:Ew.
    eapply IH; [exact H| |intros g' o' Hg'; apply Hn; now right].
    assert (Hno : forall o, In o (o0 :: olds) -> f_id o <> f_id f) by (intros o Ho; apply (Hn g o); [now left|now rewrite Eo]).
    destruct c.
    + destruct (splice_run _ _ _ _ Ep Ec) as [run [R1 R2]]. rewrite R1 in Hf. apply in_app_iff in Hf as [Hf|Hf]; [apply in_app_iff; now left|].
      apply in_app_iff in Hf as [Hf|Hf]; [|apply in_app_iff; right; apply in_app_iff; now right].
      exfalso. assert (In (f_id f) (map f_id (o0 :: olds))) as C by (rewrite <- R2; now apply in_map).
      apply in_map_iff in C as [o [C1 C2]]. now apply (Hno o).
    + apply in_app_iff. left. apply filter_In. split; auto. apply negb_true_iff, memN_false. intros C.
      apply in_map_iff in C as [o [C1 C2]]. now apply (Hno o).
Qed.

Definition keeps_others (o : op) : Prop :=
  match o with
  | Append _ | Delete _ _ | Update _ _ _ | Rewrite _ _ | CreateIndex _ _ | ReserveFragments _ | UpdateConfig _ _ _ _ | Project _ => True
  | _ => False
  end.
Lemma apply_frame : forall o m sch ixs nid nr fs ixs' nr' f, apply_op o (Some m) sch ixs nid nr = BOk (fs, ixs', nr') ->
  keeps_others o -> In f (m_fragments m) -> ~ touches o (f_id f) ->
  In (if is_project o then project_files sch f else f) fs.
Proof.
  intros o m sch ixs nid nr fs ixs' nr' f H K Hf Ht. destruct o; cbn [apply_op keeps_others is_project touches] in *; try tauto.
  - apply bbind_ok in H as [[new n0] [_ H]]. injection H as <- _ _. apply in_app_iff. now left.
  - injection H as <- _ _. apply in_map_iff. exists f. split.
    + apply update_frag_other. intros u Hu E. apply Ht. right. eauto.
    + apply filter_In. split; auto. apply negb_true_iff, memN_false. tauto.
  - injection H as <- _ _. auto.
  - apply bbind_ok in H as [[fs2 nx] [H1 H2]]. apply bbind_ok in H2 as [ix2 [_ H3]]. injection H3 as <- _ _.
    eapply rewrite_frame; eauto. intros g o Hg Ho E. apply Ht. eauto.
  - injection H as <- _ _. auto.
  - apply bbind_ok in H as [[new n0] [_ H]]. injection H as <- _ _. apply in_app_iff. left. apply in_map_iff. exists f. split.
    + rewrite find_other; auto. intros u Hu E. apply Ht. right. eauto.
    + apply filter_In. split; auto. apply negb_true_iff, memN_false. tauto.
  - injection H as <- _ _. apply in_map_iff. exists f. auto.
  - injection H as <- _ _. auto.
Qed.
Lemma commit_frame : forall h t file c m' ix m f, commit_on h t file c = BOk (m', ix) -> keeps_others (t_op t) -> latest h = Some m ->
  In f (m_fragments m) -> ~ touches (t_op t) (f_id f) -> exists sch, In (if is_project (t_op t) then project_files sch f else f) (m_fragments m').
Proof.
  intros h t file c m' ix m f H K L Hf Ht. apply commit_inv in H as [[v [le [old [E1 _]]]]|[m0 [E1 [E2 E3]]]].
  - rewrite E1 in K. destruct K.
  - apply build_inv in E1 as [sch [nr [fs [nr' [B1 [B2 [B3 [B4 _]]]]]]]]. apply finish_inv in E2 as [F1 _]. rewrite F1, B4. rewrite L in B3.
    exists sch. apply sort_frags_In. eapply apply_frame; eauto.
Qed.

Lemma same_rows_refl : forall f, same_rows f f.
Proof. intros f. repeat split; auto. Qed.
Lemma same_rows_trans : forall a b c, same_rows a b -> same_rows b c -> same_rows a c.
Proof. intros a b c [A1 [A2 [A3 [A4 A5]]]] [B1 [B2 [B3 [B4 B5]]]]. repeat split; try congruence. auto. Qed.
Lemma same_rows_project : forall s f, same_rows f (project_files s f).
Proof. intros. repeat split; auto. cbn. intros d Hd. now apply filter_In in Hd. Qed.

(* what may have been committed between the read version and an accepted row operation *)
Definition undisturbed (a o : op) : Prop := keeps_others o /\ forall i, touches a i -> ~ touches o i.
Lemma accepted_undisturbed : forall a b, row_op a -> conflicts_with a b = false -> undisturbed a b.
Proof.
  intros a b Ha H. split.
  - destruct a, b; cbn in *; try tauto; discriminate.
  - intros i H1 H2. assert (row_op b) as Hb by (destruct b; cbn in *; tauto).
    assert (conflicts_with a b = true) by (apply row_conflict; eauto). congruence.
Qed.
Lemma accepted_keeps : forall h e m0 m, history (h ++ [e]) -> row_op (t_op (e_txn e)) -> man_at h (t_read (e_txn e)) = Some m0 -> latest h = Some m ->
  forall f, In f (m_fragments m0) -> touches (t_op (e_txn e)) (f_id f) ->
  exists f', In f' (m_fragments m) /\ same_rows f f' /\
    (Forall (fun x => is_project (t_op (e_txn x)) = false) (since h (t_read (e_txn e))) -> f' = f).
Proof.
  intros h e m0 m Hh Ha H0 Hm f Hf Ht. apply history_snoc in Hh as [Hh [_ [Hc _]]].
  assert (Step : forall b h1 e1 (Q : Prop), history (h1 ++ [e1]) -> undisturbed (t_op (e_txn e)) (t_op (e_txn e1)) -> latest h1 = Some b ->
    (Q -> is_project (t_op (e_txn e1)) = false) ->
    forall f1, In f1 (m_fragments b) -> same_rows f f1 -> (Q -> f1 = f) ->
    exists f', In f' (m_fragments (e_man e1)) /\ same_rows f f' /\ (Q -> f' = f)).
  { intros b h1 e1 Q A1 [K1 K2] L1 HQ f1 P1 P2 P3. apply history_snoc in A1 as [_ [_ [_ [file A1]]]].
    assert (Hid : f_id f1 = f_id f) by apply P2.
    destruct (commit_frame _ _ _ _ _ _ _ f1 A1 K1 L1 P1) as [s Hs]; [rewrite Hid; now apply K2|].
    eexists. split; [exact Hs|]. split.
    - destruct (is_project _); auto. eapply same_rows_trans; eauto using same_rows_project.
    - intros q. rewrite (HQ q). auto. }
  destruct (Forall_dec (fun x => is_project (t_op (e_txn x)) = false) (fun x => bool_dec _ false) (since h (t_read (e_txn e)))) as [D|D].
  - assert (exists f', In f' (m_fragments m) /\ same_rows f f' /\ (True -> f' = f)) as [f' [X1 [X2 X3]]]; [|exists f'; auto].
    eapply (interval_ind history (fun o => undisturbed (t_op (e_txn e)) o /\ is_project o = false)
      (fun a b => In f (m_fragments a) -> exists f', In f' (m_fragments b) /\ same_rows f f' /\ (True -> f' = f))); eauto.
    + intros h1 e1 A1. now apply history_snoc in A1.
    + intros a A1. exists f. auto using same_rows_refl.
    + intros h1 e1 a b A1 [A2 A3] L1 P1 A4. destruct (P1 A4) as [f1 [P2 [P3 P4]]]. eapply Step; eauto.
    + unfold since in D. apply Forall_forall. intros x Hx. rewrite Forall_forall in Hc, D. split; [apply accepted_undisturbed; auto|auto].
  - assert (exists f', In f' (m_fragments m) /\ same_rows f f' /\ (False -> f' = f)) as [f' [X1 [X2 X3]]]; [|exists f'; tauto].
    eapply (interval_ind history (undisturbed (t_op (e_txn e)))
      (fun a b => In f (m_fragments a) -> exists f', In f' (m_fragments b) /\ same_rows f f' /\ (False -> f' = f))); eauto.
    + intros h1 e1 A1. now apply history_snoc in A1.
    + intros a A1. exists f. auto using same_rows_refl.
    + intros h1 e1 a b A1 A2 L1 P1 A4. destruct (P1 A4) as [f1 [P2 [P3 P4]]]. eapply Step; eauto. tauto.
    + apply Forall_forall. intros x Hx. rewrite Forall_forall in Hc. apply accepted_undisturbed; auto.
Qed.

(* no other operation than Overwrite and Restore changes the rows or deletions
   of a fragment it does not touch *)
Lemma find_self : forall fs f, NoDup (map f_id fs) -> In f fs -> find_fragment fs (f_id f) = Some f.
Proof.
  unfold find_fragment. induction fs as [|g t IH]; intros f Hn Hf; [destruct Hf|]. inversion Hn; subst. cbn [find]. destruct Hf as [->|Hf].
  - now rewrite N.eqb_refl.
  - destruct (f_id g =? f_id f) eqn:E; [|auto]. exfalso. apply H1. assert (f_id g = f_id f) as -> by lia. now apply in_map.
Qed.
Lemma replace_all_In : forall fs r l id, replace_all fs r = BOk l -> In id (map fst r) ->
  exists f f', find_fragment fs id = Some f /\ In f' l /\ same_deletions f f'.
Proof.
  intros fs. induction r as [|[i nf] t IH]; intros l id H Hi; [destruct Hi|]. cbn [replace_all] in H.
  destruct (find_fragment fs i) as [f|] eqn:E; [|discriminate]. apply bbind_ok in H as [f' [H1 H]]. apply bbind_ok in H as [l' [H2 H]]. injection H as <-.
  destruct Hi as [Hi|Hi].
  - cbn in Hi. subst i. exists f, f'. split; auto. split; [now left|]. unfold replace_one in H1. destruct (list_eqb _ _ _); [discriminate|]. injection H1 as <-. repeat split.
  - destruct (IH l' id H2 Hi) as [g [g' [G1 [G2 G3]]]]. exists g, g'. split; auto. split; auto. now right.
Qed.
Lemma Forall2_In_l : forall {A B} (R : A -> B -> Prop) a b x, Forall2 R a b -> In x a -> exists y, In y b /\ R x y.
Proof. intros A B R a b x H. induction H; intros Hx; [destruct Hx|]. destruct Hx as [<-|Hx]; [exists y; split; auto; now left|]. destruct (IHForall2 Hx) as [z [Z1 Z2]]. exists z. split; auto. now right. Qed.

Lemma deletions_survive : forall h e m, good (h ++ [e]) -> merge_honest h (e_txn e) -> is_reset (t_op (e_txn e)) = false -> latest h = Some m ->
  forall f, In f (m_fragments m) -> ~ touches (t_op (e_txn e)) (f_id f) -> exists f', In f' (m_fragments (e_man e)) /\ same_deletions f f'.
Proof.
  intros h e m G Hm Hr L f Hf Ht. pose proof (history_wf _ (good_prefix _ _ G)) as W. destruct G as [Gh _]. apply history_snoc in Gh as [Gh [_ [Hc [file G]]]].
  destruct (latest_last _ _ L) as [le [El2 <-]]. pose proof (W le (last_In _ _ El2)) as W1.
  assert (K : keeps_others (t_op (e_txn e)) -> exists f', In f' (m_fragments (e_man e)) /\ same_deletions f f').
  { intros K. destruct (commit_frame _ _ _ _ _ _ _ f G K L Hf Ht) as [s Hs]. eexists. split; [exact Hs|].
    destruct (is_project _); repeat split; auto. }
  destruct (t_op (e_txn e)) eqn:Eo; cbn [keeps_others is_reset] in *; try discriminate; try (apply K; exact I); clear K.
  all: apply commit_inv in G as [[v [le' [old [E1 _]]]]|[m0 [E1 [E2 E3]]]]; [congruence|].
  all: apply build_inv in E1 as [sch0 [nr [fs [nr' [B1 [B2 [B3 [B4 _]]]]]]]]; apply finish_inv in E2 as [F1 _]; rewrite F1, B4; rewrite L, Eo in B3; cbn [apply_op] in B3.
  - destruct (negb (same_fields replacements)); [discriminate|]. apply bbind_ok in B3 as [new [R1 R2]]. injection R2 as <- _ _.
    destruct (memN (f_id f) (map fst replacements)) eqn:E.
    + apply memN_In in E. destruct (replace_all_In _ _ _ _ R1 E) as [g [g' [G1 [G2 G3]]]].
      rewrite find_self in G1; auto; [|apply sinc_NoDup, W1]. injection G1 as <-. exists g'. split; auto. apply sort_frags_In, in_app_iff. now left.
    + exists f. split; [|repeat split]. apply sort_frags_In, in_app_iff. right. apply filter_In. split; auto. now rewrite E.
  - injection B3 as <- _ _. unfold merge_honest in Hm. rewrite Eo in Hm. destruct Hm as [mr [M1 M2]].
    assert (m_fragments mr = m_fragments (e_man le)) as Ef.
    { eapply quiet_interval; eauto. apply Forall_forall. intros x Hx. rewrite Forall_forall in Hc. specialize (Hc x Hx). cbn in Hc. destruct (t_op (e_txn x)); try discriminate; exact I. }
    rewrite Ef in M2. destruct (Forall2_In_l _ _ _ f M2 Hf) as [f' [X1 X2]]. exists f'. split; auto. now apply sort_frags_In.
Qed.

(* a Project not racing with an Overwrite applies to the fragments it was computed on *)
Lemma project_applies : forall h e m0 s, good (h ++ [e]) -> h <> [] -> t_op (e_txn e) = Project s -> man_at h (t_read (e_txn e)) = Some m0 ->
  Forall (fun x => is_reset (t_op (e_txn x)) = false) (since h (t_read (e_txn e))) ->
  m_fragments (e_man e) = map (project_files s) (m_fragments m0) /\ m_schema (e_man e) = s /\
  (forall f d, In f (m_fragments m0) -> In d (f_files f) -> (In d (f_files (project_files s f)) <-> exists z, In z (df_fields d) /\ In z (field_ids s))).
Proof.
  intros h e m0 s G Hne Eo M0 Hr. pose proof (history_wf _ (good_prefix _ _ G)) as W. destruct G as [Gh _]. apply history_snoc in Gh as [Gh [_ [Hc [file G]]]].
  destruct (latest h) as [m|] eqn:L; [|apply latest_None in L; congruence].
  assert (m_fragments m0 = m_fragments m) as Ef.
  { eapply (quiet_interval h); eauto. apply Forall_forall. intros x Hx. unfold since in Hr. rewrite Forall_forall in Hc, Hr. specialize (Hc x Hx). specialize (Hr x Hx). rewrite Eo in Hc. cbn in Hc.
    destruct (t_op (e_txn x)); try discriminate; exact I. }
  destruct (latest_last _ _ L) as [le [El2 <-]]. pose proof (W le (last_In _ _ El2)) as W1.
  apply commit_inv in G as [[v [le' [old [E1 _]]]]|[mm [E1 [E2 E3]]]]; [congruence|].
  apply build_inv in E1 as [sch0 [nr [fs [nr' [B1 [_ [B3 [B4 [_ [_ [_ [_ [B9 _]]]]]]]]]]]]]. apply finish_inv in E2 as [F1 [_ [F3 _]]]. rewrite F1, F3, B4, B9. rewrite L, Eo in *. cbn in B1. injection B1 as <-.
  cbn [apply_op] in B3. injection B3 as <- _ _. cbn [apply_config snd]. split; [|split; [reflexivity|]].
  - rewrite Ef. apply sort_frags_id, sinc_nondec. rewrite map_map. apply W1.
  - intros f d Hf Hd. cbn [project_files set_files f_files]. rewrite filter_In, existsb_exists. split.
    + intros [_ [z [Z1 Z2]]]. exists z. split; auto. unfold memZ in Z2. apply existsb_exists in Z2 as [y [Y1 Y2]]. assert (z = y) as -> by lia. auto.
    + intros [z [Z1 Z2]]. split; auto. exists z. split; auto. apply existsb_exists. exists z. split; auto. lia.
Qed.
