(* C67: the compatibility table documented at the top of
   rust/lance/src/dataset/transaction.rs (lines 27-45) against what
   conflicts_with (388-530) decides. *)
From Coq Require Import List Arith NArith ZArith Bool Lia.
From Verif Require Import Lib AMap TreeMapModel SerdeModel TxnModel TxnSpec TxnLemmas TxnFrame TxnConfig.
Import ListNotations.
Local Open Scope N_scope.

(* the rows and columns of the table; Restore and ReserveFragments are not in it *)
Inductive kind := KAppend | KDelUpd | KOverwrite | KIndex | KRewrite | KMerge | KProject | KConfig | KReplace.
Definition kind_of (o : op) : option kind :=
  match o with
  | Append _ => Some KAppend | Delete _ _ | Update _ _ _ => Some KDelUpd | Overwrite _ _ _ => Some KOverwrite
  | CreateIndex _ _ => Some KIndex | Rewrite _ _ => Some KRewrite | Merge _ _ => Some KMerge | Project _ => Some KProject
  | UpdateConfig _ _ _ _ => Some KConfig | DataReplacement _ => Some KReplace
  | Restore _ | ReserveFragments _ => None
  end.
(* Yes: compatible; No: conflict; Frags, Conf, Cells: the footnotes 1, 2, 3 *)
Inductive cell := Yes | No | Frags | Conf | Cells.
(* transaction.rs:29-39, first argument: the row (being checked), second: the
   column (already applied) *)
Definition table (r c : kind) : cell :=
  match r, c with
  | KAppend, (KOverwrite | KMerge | KProject) => No
  | KAppend, _ => Yes
  | KDelUpd, (KDelUpd | KRewrite) => Frags
  | KDelUpd, (KOverwrite | KMerge | KProject) => No
  | KDelUpd, _ => Yes
  | KOverwrite, KConfig => Conf
  | KOverwrite, _ => Yes
  | KIndex, KOverwrite => No
  | KIndex, KReplace => Cells
  | KIndex, _ => Yes
  | KRewrite, (KAppend | KConfig) => Yes
  | KRewrite, (KDelUpd | KRewrite) => Frags
  | KRewrite, KReplace => Cells
  | KRewrite, _ => No
  | KMerge, (KRewrite | KConfig | KReplace) => Yes
  | KMerge, _ => No
  | KProject, (KOverwrite | KIndex | KMerge) => No
  | KProject, _ => Yes
  | KConfig, (KOverwrite | KConfig) => Conf
  | KConfig, _ => Yes
  | KReplace, KOverwrite => No
  | KReplace, (KIndex | KProject | KReplace) => Cells
  | KReplace, KRewrite => Frags
  | KReplace, _ => Yes
  end.

(* footnote 1: the operations affect a common fragment *)
Definition affects (o : op) (i : N) : Prop := touches o i \/ exists r d, o = DataReplacement r /\ In (i, d) r.
Definition share_fragment (a b : op) : Prop := exists i, affects a i /\ affects b i.
(* footnote 2: a key set by one is referenced by the other, or both set the
   schema metadata or the metadata of a common field *)
Definition refs_key (o : op) (k : N) : Prop := In k (upsert_keys o) \/ In k (delete_keys o).
Definition share_config (a b : op) : Prop :=
  (exists k, In k (upsert_keys a) /\ refs_key b k) \/ (exists k, In k (upsert_keys b) /\ refs_key a k) \/
  (sets_schema_meta a /\ sets_schema_meta b) \/ (exists i, sets_field_meta a i /\ sets_field_meta b i).
(* footnote 3: "compatible with any operation as long as it does not modify the
   region of the column being replaced": the same field of a common fragment,
   or an index / projection of a replaced field *)
Definition replaced_fields (o : op) (z : Z) : Prop := exists r i d, o = DataReplacement r /\ In (i, d) r /\ In z (df_fields d).
Definition region (o : op) (i : N) (z : Z) : Prop :=
  match o with
  | DataReplacement r => exists d, In (i, d) r /\ In z (df_fields d)
  | CreateIndex news _ => exists ix, In ix news /\ In z (ix_fields ix)
  | Rewrite _ _ => touches o i
  | Project s => ~ In z (field_ids s)
  | _ => False
  end.
Definition share_region (a b : op) : Prop := exists i z, region a i z /\ region b i z.

Definition doc_conflict (a b : op) : Prop :=
  match kind_of a, kind_of b with
  | Some r, Some c => match table r c with
                      | Yes => False | No => True
                      | Frags => share_fragment a b | Conf => share_config a b | Cells => share_region a b
                      end
  | _, _ => False
  end.
Definition in_table (o : op) : Prop := kind_of o <> None.

(* cells where the documentation demands a conflict and the code sees none *)
Definition looser (r c : kind) : bool :=
  match r, c with
  | KAppend, KProject | KDelUpd, KProject | KRewrite, KProject | KMerge, KIndex | KProject, KOverwrite | KProject, KIndex => true
  | _, _ => false
  end.
(* cells where the code may refuse what the documentation allows *)
Definition stricter (r c : kind) : bool :=
  match r, c with
  | KDelUpd, KReplace | KOverwrite, KOverwrite | KIndex, (KRewrite | KProject | KReplace) | KRewrite, KReplace
  | KMerge, (KRewrite | KReplace) | KProject, (KAppend | KDelUpd | KRewrite | KProject | KReplace)
  | KConfig, KOverwrite | KReplace, (KIndex | KRewrite | KProject | KReplace) => true
  | _, _ => false
  end.

Lemma modifies_iff a b : modifies_same_ids a b = true <-> exists i, In i (modified_fragment_ids a) /\ In i (modified_fragment_ids b).
Proof.
  unfold modifies_same_ids. rewrite existsb_exists. split; intros [i [A B]]; exists i; rewrite ?memN_In in *; tauto.
Qed.
Lemma upsert_conflict_iff a b : upsert_key_conflict a b = true <->
  (exists k, In k (upsert_keys a) /\ refs_key b k) \/ (exists k, In k (upsert_keys b) /\ refs_key a k).
Proof.
  unfold upsert_key_conflict, refs_key. rewrite orb_true_iff, !existsb_exists.
  split; (intros [[k [A B]]|[k [A B]]]; [left|right]; exists k; (split; [exact A|]);
          rewrite ?orb_true_iff, ?memN_In in *; tauto).
Qed.
Lemma same_meta_iff a b : modifies_same_metadata a b = true <->
  (sets_schema_meta a /\ sets_schema_meta b) \/ (exists i, sets_field_meta a i /\ sets_field_meta b i).
Proof.
  destruct a; try (split; [discriminate|intros [[[] _]|[i [[] _]]]]).
  destruct b; try (split; [discriminate|intros [[_ []]|[i [_ []]]]]).
  cbn [modifies_same_metadata sets_schema_meta sets_field_meta]. rewrite orb_true_iff, andb_true_iff.
  assert (S1 : forall X (o : option X), is_some o = true <-> match o with Some _ => True | None => False end)
    by (intros ? [?|]; cbn; split; auto; discriminate).
  rewrite !S1. 
  assert (E : forall o1 o2 : option (amap (amap N)),
    match o1, o2 with Some m1, Some m2 => existsb (fun k => has k m2) (keys m1) | _, _ => false end = true <->
    exists i, match o1 with Some m => In i (keys m) | None => False end /\ match o2 with Some m => In i (keys m) | None => False end).
  { intros [m1|] [m2|]; try (split; [discriminate|intros [i [[] ?]] || intros [i [? []]]]).
    rewrite existsb_exists. split; intros [i [A B]]; exists i; (split; [exact A|]).
    - unfold has in B. destruct (get i m2) eqn:G; [|discriminate]. destruct (in_dec N.eq_dec i (keys m2)); auto.
      exfalso. apply get_None in n. congruence.
    - unfold has. destruct (get i m2) eqn:G; auto. apply get_None in G. contradiction. }
  rewrite E. split; (intros [H|H]; [left|right]); auto.
Qed.
Lemma affects_modified o i : row_op o \/ (exists r, o = DataReplacement r) -> affects o i <-> In i (modified_fragment_ids o).
Proof.
  intros [R|[r ->]].
  - unfold affects. rewrite <- touches_modified by exact R. split; [intros [H|[r [d [-> _]]]]; [exact H|destruct R]|auto].
  - unfold affects. cbn. split.
    + intros [[]|[r' [d [E H]]]]. injection E as <-. apply in_map_iff. exists (i, d). auto.
    + intros H. apply in_map_iff in H as [[j d] [E H]]. cbn in E. subst j. right. eauto.
Qed.

(* outside the listed cells the code conflicts exactly when the documentation says so *)
Lemma no_missing_conflict : forall a b r c, kind_of a = Some r -> kind_of b = Some c -> looser r c = false ->
  doc_conflict a b -> conflicts_with a b = true.
Proof.
  intros a b r c Ka Kb L D. unfold doc_conflict in D. rewrite Ka, Kb in D.
  destruct a; cbn in Ka; try discriminate; injection Ka as <-;
  destruct b; cbn in Kb; try discriminate; injection Kb as <-;
  cbn [table looser] in *; try discriminate; try contradiction; cbn [conflicts_with]; auto.
  all: try (destruct D as [i [A B]]; apply modifies_iff; exists i; split; apply affects_modified; cbn; auto).
  all: try (unfold share_config in D; rewrite ?orb_true_iff, upsert_conflict_iff, ?same_meta_iff; tauto).
  - unfold share_config in D. apply upsert_conflict_iff. destruct D as [D|[D|[[[] _]|[i [[] _]]]]]; auto.
  - destruct (is_some smeta || is_some fmeta); auto. apply upsert_conflict_iff.
    destruct D as [D|[D|[[_ []]|[i [_ []]]]]]; auto.
Qed.
Lemma no_extra_conflict : forall a b r c, kind_of a = Some r -> kind_of b = Some c -> stricter r c = false ->
  conflicts_with a b = true -> doc_conflict a b.
Proof.
  intros a b r c Ka Kb L D. unfold doc_conflict. rewrite Ka, Kb.
  destruct a; cbn in Ka; try discriminate; injection Ka as <-;
  destruct b; cbn in Kb; try discriminate; injection Kb as <-;
  cbn [table stricter conflicts_with] in *; try discriminate; auto.
  all: try (apply modifies_iff in D as [i [A B]]; exists i; split; apply affects_modified; cbn; auto; fail).
  - apply upsert_conflict_iff in D. unfold share_config. tauto.
  - rewrite orb_true_iff, upsert_conflict_iff, same_meta_iff in D. unfold share_config. tauto.
Qed.

(* every listed cell is a real difference *)
Definition f0 (i : N) : fragment := {| f_id := i; f_files := []; f_del := None; f_rowids := None; f_rows := Some 1 |}.
Definition s0 : schema := {| sc_fields := []; sc_meta := [] |}.
Definition sample (k : kind) : op :=
  match k with
  | KAppend => Append [f0 0] | KDelUpd => Delete [f0 1] [] | KOverwrite => Overwrite [f0 0] s0 (Some [(1, 1)])
  | KIndex => CreateIndex [] [] | KRewrite => Rewrite [{| rg_old := [f0 2]; rg_new := [f0 3] |}] [] | KMerge => Merge [f0 1] s0
  | KProject => Project {| sc_fields := [{| fd_id := 5; fd_name := 0; fd_meta := [] |}]; sc_meta := [] |}
  | KConfig => UpdateConfig None None (Some []) None
  | KReplace => DataReplacement [(9, {| df_path := 0; df_fields := [5%Z]; df_cols := []; df_major := 2; df_minor := 0 |})]
  end.
(* another DataReplacement, of a different fragment *)
Definition sample2 (k : kind) : op :=
  match k with
  | KReplace => DataReplacement [(8, {| df_path := 0; df_fields := [5%Z]; df_cols := []; df_major := 2; df_minor := 0 |})]
  | k => sample k
  end.
Lemma looser_real_refuted : forall r c, looser r c = true ->
  exists a b, kind_of a = Some r /\ kind_of b = Some c /\ doc_conflict a b /\ conflicts_with a b = false.
Proof.
  intros r c L. exists (sample r), (sample2 c).
  destruct r, c; try discriminate L; cbn; unfold doc_conflict; cbn; repeat split; auto.
Qed.
Lemma stricter_real : forall r c, stricter r c = true ->
  exists a b, kind_of a = Some r /\ kind_of b = Some c /\ ~ doc_conflict a b /\ conflicts_with a b = true.
Proof.
  intros r c L. exists (sample r), (sample2 c).
  destruct r, c; try discriminate L; unfold doc_conflict; cbn; (repeat split); auto; intros D; try contradiction.
  all: try (destruct D as [D|[D|[[D1 D2]|[i [D1 D2]]]]]; cbn in *; firstorder; fail).
  all: unfold share_region, share_fragment, affects in D; cbn in D.
  all: repeat match goal with
       | H : exists _, _ |- _ => destruct H
       | H : _ /\ _ |- _ => destruct H
       | H : _ \/ _ |- _ => destruct H
       | H : False |- _ => destruct H
       | H : DataReplacement _ = DataReplacement _ |- _ => injection H; clear H; intros
       | H : Rewrite _ _ = DataReplacement _ |- _ => discriminate H
       | H : (_, _) = (_, _) |- _ => injection H; clear H; intros
       end; subst; cbn in *; try contradiction; try discriminate; try lia.
  all: repeat match goal with H : _ \/ _ |- _ => destruct H | H : False |- _ => destruct H end; subst; cbn in *; try discriminate; try lia.
Qed.

Example delete_rewrite_share : conflicts_with (Delete [f0 1] []) (sample KRewrite) = false /\
  conflicts_with (Delete [f0 2] []) (sample KRewrite) = true /\ doc_conflict (Delete [f0 2] []) (sample KRewrite).
Proof.
  split; [reflexivity|split; [reflexivity|]]. exists 2. split; left; cbn.
  - right. exists (f0 2). auto.
  - exists {| rg_old := [f0 2]; rg_new := [f0 3] |}, (f0 2). cbn. auto.
Qed.
