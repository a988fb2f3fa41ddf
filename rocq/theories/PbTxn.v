(* C41, C77: what reading a transaction file back means for the conflict check of the
   commit loop, and concrete cases. *)
From Coq Require Import List Arith NArith ZArith Bool Lia String.
From Verif Require Import Lib AMap SchemaModel SchemaProofs.
From Verif Require PbModel PbProofs PbMem.
From Verif Require Import TxnModel TxnExamples NamingModel ProtoModel ProtoSpec ProtoProofs ProtoExtProofs ProtoExamples ProtoResults LoopModel LoopProofs LoopExamples.
Import ListNotations.
Local Open Scope N_scope.

(** * Transactions as read back, over the transactions of TxnModel *)
Definition seen_known (o : option N) : option N := match o with Some 0 => None | _ => o end.
Definition seen_frag (f : fragment) : fragment :=
  {| f_id := f_id f; f_files := f_files f;
     f_del := omap (fun d => {| dl_read_version := dl_read_version d; dl_id := dl_id d; dl_bitmap := dl_bitmap d; dl_count := seen_known (dl_count d) |}) (f_del f);
     f_rowids := f_rowids f; f_rows := seen_known (f_rows f) |}.
Definition seen_schema (s : schema) : schema := {| sc_fields := sc_fields s; sc_meta := [] |}.
Definition seen_present {A} (u : option (list A)) : option (list A) := match u with Some [] => None | _ => u end.
Definition seen_group (g : rewrite_group) : rewrite_group := {| rg_old := map seen_frag (rg_old g); rg_new := map seen_frag (rg_new g) |}.
Definition seen_op (o : op) : op :=
  match o with
  | Append fs => Append (map seen_frag fs)
  | Delete u d => Delete (map seen_frag u) d
  | Overwrite fs s up => Overwrite (map seen_frag fs) (seen_schema s) (match up with None | Some [] => Some [] | Some _ => None end)
  | CreateIndex n r => CreateIndex n r
  | Rewrite gs rw => Rewrite (match gs with [] => [{| rg_old := []; rg_new := [] |}] | _ => map seen_group gs end) rw
  | DataReplacement r => DataReplacement r
  | Merge fs s => Merge (map seen_frag fs) (seen_schema s)
  | Restore v => Restore v
  | ReserveFragments n => ReserveFragments n
  | Update r u n => Update r (map seen_frag u) (map seen_frag n)
  | Project s => Project (seen_schema s)
  | UpdateConfig up de sm fm => UpdateConfig (seen_present up) (seen_present de) (seen_present sm) (seen_present fm)
  end.
Definition seen_txn (t : txn) : txn := {| t_read := t_read t; t_uuid := t_uuid t; t_op := seen_op (t_op t); t_tag := t_tag t |}.

(** * It is the protobuf round trip, seen through any naming of strings, uuids and row-id metadata *)
Section Abs.
Context (nm : string -> N) (uid : list N -> N) (ids : PbModel.row_id_meta -> list N).
Definition a_map (m : smap) : amap N := fold_left (fun acc kv => put (nm (fst kv)) (nm (snd kv)) acc) m [].
Definition a_file (f : PbModel.data_file) : dfile :=
  {| df_path := nm (PbModel.fl_path f); df_fields := PbModel.fl_fields f; df_cols := PbModel.fl_columns f; df_major := PbModel.fl_major f; df_minor := PbModel.fl_minor f |}.
Definition a_del (d : PbModel.deletion_file) : delfile :=
  {| dl_read_version := PbModel.dn_read d; dl_id := PbModel.dn_id d; dl_bitmap := match PbModel.dn_type d with PbModel.DBitmap => true | _ => false end; dl_count := PbModel.dn_count d |}.
Definition a_frag (f : PbModel.frag) : fragment :=
  {| f_id := PbModel.fr_id f; f_files := map a_file (PbModel.fr_files f); f_del := omap a_del (PbModel.fr_del f); f_rowids := omap ids (PbModel.fr_rowids f); f_rows := PbModel.fr_rows f |}.
Definition a_index (i : PbModel.ixmeta) : index :=
  {| ix_uuid := uid (PbModel.im_uuid i); ix_name := nm (PbModel.im_name i); ix_fields := PbModel.im_fields i; ix_version := PbModel.im_version i; ix_bitmap := PbModel.im_bitmap i |}.
Definition a_field (f : rfield) : field := {| fd_id := r_id f; fd_name := nm (r_name f); fd_meta := a_map (a_meta (r_attrs f)) |}.
Definition a_schema (s : rschema) : schema := {| sc_fields := map a_field (fields_pre_order (rs_fields s)); sc_meta := a_map (rs_meta s) |}.
Definition a_group (g : PbModel.group) : rewrite_group := {| rg_old := map a_frag (PbModel.gr_old g); rg_new := map a_frag (PbModel.gr_new g) |}.
Definition a_fmeta (m : list (N * smap)) : amap (amap N) := fold_left (fun acc kv => put (fst kv) (a_map (snd kv)) acc) m [].
Definition a_op (o : PbModel.rop) : op :=
  match o with
  | PbModel.RAppend fs => Append (map a_frag fs)
  | PbModel.RDelete u d _ => Delete (map a_frag u) d
  | PbModel.ROverwrite fs s up => Overwrite (map a_frag fs) (a_schema s) (omap a_map up)
  | PbModel.RCreateIndex n r => CreateIndex (map a_index n) (map a_index r)
  | PbModel.RRewrite gs rw => Rewrite (map a_group gs) (map (fun p => {| rw_old := uid (fst p); rw_new := uid (snd p) |}) rw)
  | PbModel.RDataReplacement r => DataReplacement (map (fun p => (fst p, a_file (snd p))) r)
  | PbModel.RMerge fs s => Merge (map a_frag fs) (a_schema s)
  | PbModel.RRestore v => Restore v
  | PbModel.RReserveFragments n => ReserveFragments n
  | PbModel.RUpdate r u n => Update r (map a_frag u) (map a_frag n)
  | PbModel.RProject s => Project (a_schema s)
  | PbModel.RUpdateConfig up de sm fm => UpdateConfig (omap a_map up) (omap (map nm) de) (omap a_map sm) (omap a_fmeta fm)
  end.
Definition a_txn (t : PbModel.rtxn) : txn :=
  {| t_read := PbModel.rt_read t; t_uuid := nm (PbModel.rt_uuid t); t_op := a_op (PbModel.rt_op t); t_tag := omap nm (PbModel.rt_tag t) |}.
End Abs.

Lemma fold_put_nil : forall A V (k : A -> N) (v : A -> V) l acc, fold_left (fun acc x => put (k x) (v x) acc) l acc = [] -> l = [].
Proof.
  intros A V k v l. induction l as [|x t IH]; intros acc E; [reflexivity|]. cbn [fold_left] in E. apply IH in E as T. subst t. cbn in E.
  assert (X : get (k x) (put (k x) (v x) acc) = Some (v x)) by apply get_put_eq. rewrite E in X. discriminate.
Qed.
Lemma a_map_nil : forall nm m, a_map nm m = [] -> m = [].
Proof. intros nm m. unfold a_map. apply fold_put_nil. Qed.
Lemma a_fmeta_nil : forall nm m, a_fmeta nm m = [] -> m = [].
Proof. intros nm m. unfold a_fmeta. apply fold_put_nil. Qed.
Lemma a_frag_seen : forall nm ids f, a_frag nm ids (PbProofs.norm_frag f) = seen_frag (a_frag nm ids f).
Proof. intros nm ids [i fs de ri ro]. unfold a_frag, seen_frag. cbn. f_equal. destruct de as [[]|]; reflexivity. Qed.
Lemma a_frags_seen : forall nm ids fs, map (a_frag nm ids) (map PbProofs.norm_frag fs) = map seen_frag (map (a_frag nm ids) fs).
Proof. intros. rewrite !map_map. apply map_ext. intros. apply a_frag_seen. Qed.
Lemma a_present : forall A B (f : list A -> list B) u, (forall m, f m = [] -> m = []) -> f [] = [] -> omap f (PbProofs.present u) = seen_present (omap f u).
Proof.
  intros A B f [[|x t]|] H Z; [cbn; rewrite Z; reflexivity| |reflexivity]. cbn. destruct (f (x :: t)) eqn:E; [apply H in E; discriminate|reflexivity].
Qed.
Theorem reread_seen : forall nm uid ids t, a_txn nm uid ids (PbProofs.reread_txn t) = seen_txn (a_txn nm uid ids t).
Proof.
  intros nm uid ids [r u o b tg]. unfold a_txn, seen_txn, PbProofs.reread_txn. cbn [PbModel.rt_read PbModel.rt_uuid PbModel.rt_op PbModel.rt_tag t_read t_uuid t_op t_tag]. f_equal.
  destruct o as [fs|up d p|fs s up|n rr|gs rw|rr|fs s|v|n|rr up n|s|up de sm fm]; cbn [PbProofs.reread_op a_op seen_op]; rewrite ?a_frags_seen; try reflexivity.
  - f_equal. destruct up as [[|x t]|]; [reflexivity| |reflexivity]. cbn [PbProofs.inverted omap]. destruct (a_map nm (x :: t)) eqn:E; [apply a_map_nil in E; discriminate|reflexivity].
  - f_equal. destruct gs as [|g t]; [reflexivity|]. rewrite (map_map PbProofs.norm_group), (map_cons (a_group nm ids)). cbn [map]. f_equal.
    + unfold PbProofs.norm_group, a_group, seen_group. cbn. rewrite !a_frags_seen. reflexivity.
    + rewrite map_map. apply map_ext. intros h. unfold PbProofs.norm_group, a_group, seen_group. cbn. rewrite !a_frags_seen. reflexivity.
  - f_equal; apply a_present; try reflexivity; try apply a_map_nil; try apply a_fmeta_nil. intros [|]; [reflexivity|discriminate].
Qed.

(** * Which conflicts survive *)
Definition forgets (b : op) : Prop :=
  match b with Overwrite _ _ (Some (_ :: _)) => True | UpdateConfig _ _ (Some []) _ => True | _ => False end.
Lemma seen_frag_ids : forall fs, map f_id (map seen_frag fs) = map f_id fs.
Proof. intros. rewrite map_map. reflexivity. Qed.
Theorem seen_conflicts : forall a b, ~ forgets b -> conflicts_with a (seen_op b) = conflicts_with a b.
Proof.
  intros a b F.
  assert (M : modified_fragment_ids (seen_op b) = modified_fragment_ids b).
  { destruct b as [fs|u d|fs s up|n r|gs rw|r|fs s|v|n|r u n|s|up de sm fm]; cbn; rewrite ?seen_frag_ids; try reflexivity.
    destruct gs as [|g t]; [reflexivity|]. cbn [map flat_map]. f_equal; [apply seen_frag_ids|]. rewrite flat_map_concat_map, map_map, <- flat_map_concat_map. 
    rewrite (flat_map_concat_map _ t), (flat_map_concat_map _ t). f_equal. apply map_ext. intros h. apply seen_frag_ids. }
  assert (U : upsert_keys (seen_op b) = upsert_keys b).
  { destruct b; cbn in *; try reflexivity; try (destruct upsert as [[|]|]; [reflexivity|tauto|reflexivity]). }
  assert (D : delete_keys (seen_op b) = delete_keys b).
  { destruct b; cbn in *; try reflexivity. destruct delete as [[|]|]; reflexivity. }
  unfold conflicts_with, modifies_same_ids, upsert_key_conflict. rewrite M, U, D.
  destruct a; try (destruct b; reflexivity).
  destruct b; cbn [seen_op]; try reflexivity. f_equal. unfold modifies_same_metadata. f_equal.
  - destruct smeta0 as [[|]|]; [cbn in F; tauto|reflexivity|reflexivity].
  - destruct fmeta as [m1|]; [|reflexivity]. destruct fmeta0 as [[|x t]|]; [|reflexivity|reflexivity]. cbn. clear. induction (keys m1); [reflexivity|assumption].
Qed.

(** * A conflict the commit loop misses *)
Definition o2 := tx 1 2 (Overwrite [f0] (sch [0%Z; 1%Z]) (Some [(7, 1)])).
Definition u5 := tx 1 5 (UpdateConfig (Some [(7, 2)]) None None None).
Definition y2 : entry := Eval vm_compute in the (loop_build o2 dflt 2 1 x1 None).
Definition y5 : entry := Eval vm_compute in the (loop_build u5 dflt 5 2 y2 None).
Definition c2 := tx 1 2 (UpdateConfig None None (Some []) None).
Definition c5 := tx 1 5 (UpdateConfig None None (Some [(3, 4)]) None).
Definition z2 : entry := Eval vm_compute in the (loop_build c2 dflt 2 1 x1 None).
Definition z5 : entry := Eval vm_compute in the (loop_build c5 dflt 5 2 z2 None).
(* a committed transaction conflicts with none of those committed since it was read *)
Definition conflict_free (seen : txn -> txn) : Prop :=
  forall s, reachable (loop_lts true seen (abs_lts entry)) s ->
  forall i t v u y, snd s i = WDone t v -> t_read t < u < v -> a_vers (fst s) u = Some y -> conflicts_with (t_op t) (t_op (e_txn y)) = false.
Lemma missed_overwrite : exists s, reachable (loop_lts true seen_txn (abs_lts entry)) s /\
  snd s 5 = WDone u5 3 /\ a_vers (fst s) 2 = Some y2 /\ t_read u5 = 1 /\ conflicts_with (t_op u5) (t_op (e_txn y2)) = true /\ m_config (e_man y2) = [(7, 1)] /\ m_config (e_man y5) = [(7, 2)].
Proof.
  assert (X : exists s, run (loop_lts true seen_txn (abs_lts entry)) loop0
    [LBegin 1 1 x1; LRet 1 ROk; LRead 1 x1; LRead 1 x1; LLatest 1; LRead 1 x1; LBegin 2 2 y2; LRet 2 ROk; LLatest 2; LRead 2 y2; LRead 2 y2; LBegin 5 3 y5; LRet 5 ROk] s /\ snd s 5 = WDone u5 3 /\ a_vers (fst s) 2 = Some y2).
  { unfold loop0, reg0. eexists. split.
    - wt 1 (w_new _ _ created dflt 1 x1). ws 1 (as_begin _ _ 1 1 x1) (w_new_begin). do_s; [eapply (as_commit _ _ 1); fin|]. ws 1 (as_ok _ _ 1) (w_new_ok).
      ws 2 (as_read _ _ 1 x1) (w_start _ _ o2 dflt 2). ws 5 (as_read _ _ 1 x1) (w_start _ _ u5 dflt 5). ws 2 (as_latest _ _ 1) (w_latest _ _ _ _ _ 5). ws 2 (as_read _ _ 1 x1) (w_latest_read).
      wt 2 w_checked. wt 2 (w_build _ _ _ _ _ _ _ _ y2). ws 2 (as_begin _ _ 2 2 y2) (w_begin). do_s; [eapply (as_commit _ _ 2); fin|]. ws 2 (as_ok _ _ 2) (w_ok).
      ws 5 (as_latest _ _ 2) (w_latest _ _ _ _ _ 4). ws 5 (as_read _ _ 2 y2) (w_latest_read). ws 5 (as_read _ _ 2 y2) (w_check_ok _ _ _ _ _ _ _ _ _ _ 2).
      wt 5 w_checked. wt 5 (w_build _ _ _ _ _ _ _ _ y5). ws 5 (as_begin _ _ 5 3 y5) (w_begin). do_s; [eapply (as_commit _ _ 5); fin|]. ws 5 (as_ok _ _ 5) (w_ok). apply run_nil.
    - split; reflexivity. }
  destruct X as [s [X [D E]]]. exists s. split; [exists loop0; eexists; split; [repeat split; reflexivity|exact X]|]. repeat apply conj; try assumption; vm_compute; reflexivity.
Qed.
Lemma missed_clear : exists s, reachable (loop_lts true seen_txn (abs_lts entry)) s /\
  snd s 5 = WDone c5 3 /\ a_vers (fst s) 2 = Some z2 /\ t_read c5 = 1 /\ conflicts_with (t_op c5) (t_op (e_txn z2)) = true.
Proof.
  assert (X : exists s, run (loop_lts true seen_txn (abs_lts entry)) loop0
    [LBegin 1 1 x1; LRet 1 ROk; LRead 1 x1; LRead 1 x1; LLatest 1; LRead 1 x1; LBegin 2 2 z2; LRet 2 ROk; LLatest 2; LRead 2 z2; LRead 2 z2; LBegin 5 3 z5; LRet 5 ROk] s /\ snd s 5 = WDone c5 3 /\ a_vers (fst s) 2 = Some z2).
  { unfold loop0, reg0. eexists. split.
    - wt 1 (w_new _ _ created dflt 1 x1). ws 1 (as_begin _ _ 1 1 x1) (w_new_begin). do_s; [eapply (as_commit _ _ 1); fin|]. ws 1 (as_ok _ _ 1) (w_new_ok).
      ws 2 (as_read _ _ 1 x1) (w_start _ _ c2 dflt 2). ws 5 (as_read _ _ 1 x1) (w_start _ _ c5 dflt 5). ws 2 (as_latest _ _ 1) (w_latest _ _ _ _ _ 5). ws 2 (as_read _ _ 1 x1) (w_latest_read).
      wt 2 w_checked. wt 2 (w_build _ _ _ _ _ _ _ _ z2). ws 2 (as_begin _ _ 2 2 z2) (w_begin). do_s; [eapply (as_commit _ _ 2); fin|]. ws 2 (as_ok _ _ 2) (w_ok).
      ws 5 (as_latest _ _ 2) (w_latest _ _ _ _ _ 4). ws 5 (as_read _ _ 2 z2) (w_latest_read). ws 5 (as_read _ _ 2 z2) (w_check_ok _ _ _ _ _ _ _ _ _ _ 2).
      wt 5 w_checked. wt 5 (w_build _ _ _ _ _ _ _ _ z5). ws 5 (as_begin _ _ 5 3 z5) (w_begin). do_s; [eapply (as_commit _ _ 5); fin|]. ws 5 (as_ok _ _ 5) (w_ok). apply run_nil.
    - split; reflexivity. }
  destruct X as [s [X [D E]]]. exists s. split; [exists loop0; eexists; split; [repeat split; reflexivity|exact X]|]. repeat apply conj; try assumption; vm_compute; reflexivity.
Qed.
Theorem conflict_missed_refuted : ~ conflict_free seen_txn.
Proof. intros C. destruct missed_overwrite as (s & R & D & E & _ & K & _). rewrite (C s R 5 u5 3 2 y2 D (conj eq_refl eq_refl) E) in K. discriminate. Qed.
Theorem cleared_metadata_missed_refuted : ~ (forall s, reachable (loop_lts true seen_txn (abs_lts entry)) s ->
  forall i t v u y, snd s i = WDone t v -> t_read t < u < v -> a_vers (fst s) u = Some y -> (forall fs sc up, t_op (e_txn y) <> Overwrite fs sc up) -> conflicts_with (t_op t) (t_op (e_txn y)) = false).
Proof. intros C. destruct missed_clear as (s & R & D & E & _ & K). rewrite (C s R 5 c5 3 2 z2 D (conj eq_refl eq_refl) E) in K; [discriminate|]. discriminate. Qed.
