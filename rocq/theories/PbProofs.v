From Coq Require Import List Arith NArith ZArith Bool Lia String.
From Verif Require Import Lib SchemaModel SchemaProofs PbModel.
From Verif Require TxnModel.
Import ListNotations.
Local Open Scope N_scope.

(** * Specification: what may change on the way to disk and back *)

(* a recorded count of zero is read as "unknown" *)
Definition known (o : option N) : option N := match o with Some 0 => None | _ => o end.
Definition norm_del (d : deletion_file) : deletion_file :=
  {| dn_read := dn_read d; dn_id := dn_id d; dn_type := dn_type d; dn_count := known (dn_count d) |}.
Definition norm_frag (f : frag) : frag :=
  {| fr_id := fr_id f; fr_files := fr_files f; fr_del := omap norm_del (fr_del f); fr_rowids := fr_rowids f; fr_rows := known (fr_rows f) |}.
Definition counted (f : frag) : Prop := fr_rows f <> Some 0 /\ forall d, fr_del f = Some d -> dn_count d <> Some 0.

(** * Helpers *)
Lemma bmap_ok : forall A B (f : A -> bres B) (g : A -> B) l, (forall a, In a l -> f a = BOk (g a)) -> bmap f l = BOk (map g l).
Proof.
  induction l as [|x t IH]; intros H; [reflexivity|]. cbn. rewrite H by (left; reflexivity). cbn. rewrite IH by (intros; apply H; right; assumption). reflexivity.
Qed.
Lemma bmap_map : forall A B C (h : A -> B) (f : B -> bres C) l, bmap f (map h l) = bmap (fun a => f (h a)) l.
Proof. induction l as [|x t IH]; [reflexivity|]. cbn. destruct (f (h x)); cbn; [rewrite IH|..]; reflexivity. Qed.
Lemma zero_known : forall o, zero_none (or_zero o) = known o.
Proof. intros [[|p]|]; reflexivity. Qed.
Lemma empty_or : forall o, o <> Some EmptyString -> empty_none (or_empty o) = o.
Proof. intros [[|c s]|] H; [contradiction H; reflexivity|reflexivity|reflexivity]. Qed.

(** * Fragments *)
Lemma dec_enc_file : forall f, dec_file (enc_file f) = BOk f.
Proof. intros []. reflexivity. Qed.
Theorem frag_roundtrip : forall f, dec_frag (enc_frag f) = BOk (norm_frag f).
Proof.
  intros [i fs de ri ro]. unfold dec_frag, enc_frag, norm_frag. cbn [pfr_files pfr_del pfr_rowids pfr_rows pfr_id fr_id fr_files fr_del fr_rowids fr_rows].
  rewrite bmap_map. rewrite (bmap_ok _ _ _ (fun x => x)) by (intros; apply dec_enc_file). rewrite map_id. cbn [bbind TxnModel.bbind].
  assert (E : bopt dec_deletion (omap enc_deletion de) = BOk (omap norm_del de)).
  { destruct de as [[r id ty c]|]; [|reflexivity]. cbn. unfold dec_deletion, norm_del. cbn. rewrite zero_known. destruct ty; reflexivity. }
  rewrite E. cbn [TxnModel.bbind].
  assert (E2 : bopt dec_row_ids (omap enc_row_ids ri) = BOk ri).
  { destruct ri as [[b|[p o s]]|]; reflexivity. }
  rewrite E2. cbn [TxnModel.bbind]. do 2 f_equal. destruct ro as [[|p]|]; reflexivity.
Qed.
Lemma known_id : forall o, o <> Some 0 -> known o = o.
Proof. intros [[|p]|] H; [contradiction H; reflexivity|reflexivity|reflexivity]. Qed.
Lemma norm_counted : forall f, counted f -> norm_frag f = f.
Proof.
  intros [i fs de ri ro] [H1 H2]. unfold norm_frag. cbn in *. rewrite known_id by exact H1. f_equal.
  destruct de as [[r id ty c]|]; [|reflexivity]. cbn. unfold norm_del. cbn. rewrite known_id by (apply (H2 _ eq_refl)). reflexivity.
Qed.
Theorem frag_roundtrip_counted : forall f, counted f -> dec_frag (enc_frag f) = BOk f.
Proof. intros f H. rewrite frag_roundtrip, norm_counted by exact H. reflexivity. Qed.
Theorem frag_roundtrip_iff : forall f, dec_frag (enc_frag f) = BOk f <-> counted f.
Proof.
  intros f. rewrite frag_roundtrip. split; [|intros H; rewrite norm_counted by exact H; reflexivity].
  intros [= E]. destruct f as [i fs de ri ro]. unfold norm_frag in E. cbn in E. injection E as E1 E2. split; cbn.
  - intros ->. discriminate E2.
  - intros d -> X. destruct d as [r id ty c]. cbn in *. subst c. discriminate E1.
Qed.

(** * Indices *)
Definition roaring_codec (ser : list N -> list N) (deser : list N -> option (list N)) : Prop :=
  forall b, ser b <> [] /\ deser (ser b) = Some b.
Theorem index_roundtrip : forall ser deser i, roaring_codec ser deser -> List.length (im_uuid i) = 16%nat ->
  dec_index deser (enc_index ser i) = BOk i.
Proof.
  intros ser deser [u f n v b d] C L. unfold dec_index, enc_index. cbn in *.
  assert (E : (match match b with Some b0 => ser b0 | None => [] end with
               | [] => BOk None
               | n0 :: l => match deser (n0 :: l) with Some b0 => BOk (Some b0) | None => BErr end
               end) = BOk b).
  { destruct b as [b|]; [|reflexivity]. destruct (C b) as [C1 C2]. destruct (ser b) eqn:E; [contradiction C1; reflexivity|]. rewrite C2. reflexivity. }
  rewrite E. cbn. unfold dec_uuid. rewrite L. reflexivity.
Qed.

(** * Manifests *)
Lemma bmap_frags : forall fs, bmap dec_frag (map enc_frag fs) = BOk (map norm_frag fs).
Proof. intros. rewrite bmap_map. apply bmap_ok. intros. apply frag_roundtrip. Qed.
Definition norm_manifest (m : rmanifest) : rmanifest :=
  {| rm_schema := rm_schema m; rm_local := rm_local m; rm_version := rm_version m; rm_writer := rm_writer m;
     rm_fragments := map norm_frag (rm_fragments m); rm_aux := rm_aux m; rm_index_section := rm_index_section m; rm_nanos := rm_nanos m;
     rm_tag := rm_tag m; rm_rflags := rm_rflags m; rm_wflags := rm_wflags m; rm_max := rm_max m; rm_txn := rm_txn m;
     rm_offsets := rm_offsets m; rm_next_row := rm_next_row m; rm_format := rm_format m; rm_config := rm_config m; rm_blob := rm_blob m |}.
(* the derived members agree with what they are derived from, and optional members are not "present but empty" *)
Record manifest_ok (m : rmanifest) : Prop := {
  mo_schema : schema_ok (rs_fields (rm_schema m));
  mo_arrays : no_arrays (rs_fields (rm_schema m));
  mo_local : rm_local m = retain_storage_class SDefault (rm_schema m);
  mo_offsets : compute_offsets (rm_fragments m) = BOk (rm_offsets m);
  mo_del : forall f d, In f (rm_fragments m) -> fr_del f = Some d -> dn_count d <> Some 0;
  mo_rowids : N.land 2 (rm_rflags m) <> 0 -> forall f, In f (rm_fragments m) -> fr_rowids f <> None;
  mo_nanos : rm_nanos m < two63 * giga;
  mo_tag : rm_tag m <> Some EmptyString;
  mo_txn : rm_txn m <> Some EmptyString;
  mo_blob : rm_blob m <> Some 0 }.
Lemma offsets_norm : forall fs s o, (forall f d, In f fs -> fr_del f = Some d -> dn_count d <> Some 0) ->
  offsets_from s fs = BOk o -> offsets_from s (map norm_frag fs) = BOk o.
Proof.
  induction fs as [|f t IH]; intros s o H; [intros E; exact E|]. cbn [map offsets_from].
  assert (E : forall b, num_rows f = BOk b -> exists a, num_rows (norm_frag f) = BOk a /\ or_zero a = or_zero b).
  { destruct f as [i fs de ri ro]. specialize (H _ (match de with Some d => d | None => Build_deletion_file 0 0 DArray None end) (or_introl eq_refl)). cbn in H.
    unfold num_rows, norm_frag. cbn. destruct de as [[r id ty c]|]; cbn.
    - specialize (H eq_refl). cbn in H. rewrite (known_id c) by exact H.
      destruct ro as [[|p]|]; cbn; intros b E; try (exists b; split; [exact E|reflexivity]).
      exists None. split; [destruct c; reflexivity|]. destruct c as [k|]; [|injection E as <-; reflexivity].
      destruct k as [|k]; [congruence|]. cbn in E. discriminate E.
    - intros b E. exists (known b). destruct ro as [[|p]|]; injection E as <-; split; reflexivity. }
  destruct (num_rows f) as [b| |]; cbn [TxnModel.bbind]; try discriminate. destruct (E b eq_refl) as (a & -> & EA). cbn [TxnModel.bbind]. rewrite EA.
  destruct (offsets_from (s + or_zero b) t) as [q| |] eqn:Q; cbn [TxnModel.bbind]; try discriminate.
  rewrite (IH _ q); [intros X; exact X| |exact Q]. intros g d Hg. apply H. right. exact Hg.
Qed.
Local Arguments two63 : simpl never.
Local Arguments two64 : simpl never.
Local Arguments two128 : simpl never.
Local Arguments giga : simpl never.
Lemma timestamp_roundtrip : forall n, n < two63 * giga ->
  dec_timestamp (if n =? 0 then None else Some (as_i64 ((n - n mod giga) / giga mod two64), Z.of_N (n mod giga))) = n.
Proof.
  intros n H. destruct (N.eqb_spec n 0) as [->|Hn]; [reflexivity|]. unfold dec_timestamp, as_u128.
  assert (G : 0 < giga) by (unfold giga; lia).
  pose proof (N.div_mod n giga ltac:(lia)) as DM. pose proof (N.mod_lt n giga ltac:(lia)) as ML.
  assert (Q : n / giga < two63) by (apply N.div_lt_upper_bound; lia).
  revert DM ML Q. generalize (n / giga) (n mod giga). intros q r DM ML Q.
  assert (E : (n - r) / giga = q) by (replace (n - r) with (q * giga) by (rewrite DM; rewrite (N.mul_comm giga q); lia); apply N.div_mul; lia).
  rewrite E. assert (T : two63 < two64) by reflexivity. rewrite (N.mod_small q) by lia. unfold as_i64. destruct (N.ltb_spec q two63); [|lia].
  rewrite !Z.mod_small by (unfold two63, two128, giga in *; lia). rewrite !N2Z.id.
  rewrite N.mod_small; [lia|]. unfold two63, two128, giga in *. lia.
Qed.
Theorem manifest_roundtrip : forall m, manifest_ok m -> dec_manifest (enc_manifest m) = BOk (norm_manifest m).
Proof.
  intros m [H1 H2 H3 H4 H5 H6 H7 H8 H9 H10]. unfold dec_manifest, enc_manifest, norm_manifest.
  cbn [pm_fields pm_fragments pm_version pm_aux pm_metadata pm_writer pm_index_section pm_timestamp pm_tag pm_rflags pm_wflags pm_max pm_txn pm_next_row pm_format pm_config pm_blob].
  rewrite bmap_frags. cbn [TxnModel.bbind]. unfold compute_offsets in *. rewrite (offsets_norm _ _ _ H5 H4). cbn [TxnModel.bbind].
  assert (E : negb (N.land 2 (rm_rflags m) =? 0) && negb (forallb (fun f => TxnModel.is_some (fr_rowids f)) (map norm_frag (rm_fragments m))) = false).
  { destruct (N.eqb_spec (N.land 2 (rm_rflags m)) 0) as [|X]; [reflexivity|]. cbn. apply negb_false_iff. apply forallb_forall.
    intros f Hf. apply in_map_iff in Hf. destruct Hf as (g & <- & Hg). cbn. specialize (H6 X g Hg). destruct (fr_rowids g); [reflexivity|contradiction H6; reflexivity]. }
  rewrite E. cbn [sf_format sf_version].
  pose proof (schema_roundtrip (rm_schema m) H1) as SR. rewrite strip_none in SR by exact H2.
  destruct (enc_schema (rm_schema m)) as [q1 q2]. cbn [fst snd TxnModel.bbind] in *. rewrite SR. cbn [of_panic TxnModel.bbind].
  rewrite timestamp_roundtrip by exact H7. rewrite !empty_or by assumption. rewrite zero_known, known_id by exact H10.
  destruct (rm_schema m) as [sf sm] eqn:ES. cbn [rs_fields rs_meta]. rewrite H3. destruct (rm_format m). reflexivity.
Qed.
Corollary manifest_roundtrip_counted : forall m, manifest_ok m -> Forall counted (rm_fragments m) -> dec_manifest (enc_manifest m) = BOk m.
Proof.
  intros m H C. rewrite manifest_roundtrip by exact H. f_equal. unfold norm_manifest. destruct m. cbn in *. f_equal.
  clear H. induction C; [reflexivity|]. cbn. rewrite norm_counted by assumption. f_equal. assumption.
Qed.

(** * Transactions *)

(* what a transaction looks like when read back: schema metadata of overwrites, merges
   and projections is not stored, config updates of an overwrite are inverted, and a
   rewrite of no groups becomes a rewrite of one empty group *)
Definition no_meta (s : rschema) : rschema := {| rs_fields := rs_fields s; rs_meta := [] |}.
Definition inverted (u : option smap) : option smap := match u with None | Some [] => Some [] | Some _ => None end.
Definition present {A} (u : option (list A)) : option (list A) := match u with Some [] => None | _ => u end.
Definition norm_group (g : group) : group := {| gr_old := map norm_frag (gr_old g); gr_new := map norm_frag (gr_new g) |}.
Definition reread_op (o : rop) : rop :=
  match o with
  | RAppend fs => RAppend (map norm_frag fs)
  | RDelete u d p => RDelete (map norm_frag u) d p
  | ROverwrite fs s up => ROverwrite (map norm_frag fs) (no_meta s) (inverted up)
  | RCreateIndex n r => RCreateIndex n r
  | RRewrite gs rw => RRewrite (match gs with [] => [{| gr_old := []; gr_new := [] |}] | _ => map norm_group gs end) rw
  | RDataReplacement r => RDataReplacement r
  | RMerge fs s => RMerge (map norm_frag fs) (no_meta s)
  | RRestore v => RRestore v
  | RReserveFragments n => RReserveFragments n
  | RUpdate r u n => RUpdate r (map norm_frag u) (map norm_frag n)
  | RProject s => RProject (no_meta s)
  | RUpdateConfig up de sm fm => RUpdateConfig (present up) (present de) (present sm) (present fm)
  end.
Definition reread_txn (t : rtxn) : rtxn :=
  {| rt_read := rt_read t; rt_uuid := rt_uuid t; rt_op := reread_op (rt_op t); rt_blob := omap reread_op (rt_blob t); rt_tag := rt_tag t |}.

Definition rschema_ok (s : rschema) : Prop := schema_ok (rs_fields s) /\ no_arrays (rs_fields s).
Definition uuid16 (u : list N) : Prop := List.length u = 16%nat.
Definition op_ok (o : rop) : Prop :=
  match o with
  | ROverwrite _ s _ | RMerge _ s | RProject s => rschema_ok s
  | RCreateIndex n r => Forall (fun i => uuid16 (im_uuid i)) (n ++ r)
  | RRewrite _ rw => Forall (fun p => uuid16 (fst p) /\ uuid16 (snd p)) rw
  | _ => True
  end.
Definition blob_ok (o : rop) : Prop := match o with RAppend _ | ROverwrite _ _ _ => op_ok o | _ => False end.
Definition txn_ok (t : rtxn) : Prop := op_ok (rt_op t) /\ (forall b, rt_blob t = Some b -> blob_ok b) /\ rt_tag t <> Some EmptyString.

Lemma dec_fields_ok : forall s, rschema_ok s -> dec_fields (schema_protos (rs_fields s)) = BOk (no_meta s).
Proof. intros s [H1 H2]. unfold dec_fields. rewrite schema_fields_roundtrip by exact H1. rewrite strip_none by exact H2. reflexivity. Qed.
Lemma dec_upsert_inv : forall u, dec_upsert (or_nil u) = inverted u.
Proof. intros [[|]|]; reflexivity. Qed.
Lemma dec_nil : forall A (u : option (list A)), nil_none (or_nil u) = present u.
Proof. intros A [[|]|]; reflexivity. Qed.
Lemma uuid_ok : forall u, uuid16 u -> dec_uuid u = BOk u.
Proof. intros u H. unfold dec_uuid, uuid16 in *. rewrite H. reflexivity. Qed.
Local Arguments norm_frag : simpl never.
Lemma op_roundtrip : forall ser deser o, roaring_codec ser deser -> op_ok o -> dec_op deser (enc_op ser o) = BOk (reread_op o).
Proof.
  intros ser deser o C K. destruct o; cbn [enc_op dec_op reread_op op_ok] in *; rewrite ?bmap_frags; cbn [TxnModel.bbind]; rewrite ?bmap_frags; cbn [TxnModel.bbind]; try reflexivity.
  - rewrite dec_fields_ok by exact K. cbn. rewrite dec_upsert_inv. reflexivity.
  - apply Forall_app in K. destruct K as [K1 K2].
    rewrite bmap_map, (bmap_ok _ _ _ (fun x => x)), map_id by (intros i Hi; apply index_roundtrip; [exact C|apply (proj1 (Forall_forall _ _) K1 i Hi)]).
    cbn [TxnModel.bbind].
    rewrite bmap_map, (bmap_ok _ _ _ (fun x => x)), map_id by (intros i Hi; apply index_roundtrip; [exact C|apply (proj1 (Forall_forall _ _) K2 i Hi)]).
    reflexivity.
  - assert (E : bmap dec_rewritten (map (fun r => (Some (fst r), Some (snd r))) rewritten) = BOk rewritten).
    { rewrite bmap_map, (bmap_ok _ _ _ (fun x => x)), map_id; [reflexivity|]. intros [a b] Hi. destruct (proj1 (Forall_forall _ _) K _ Hi) as [U1 U2].
      unfold dec_rewritten. cbn in *. rewrite (uuid_ok a U1). cbn. rewrite (uuid_ok b U2). reflexivity. }
    assert (G : forall gs, bmap dec_group (map (fun g => (map enc_frag (gr_old g), map enc_frag (gr_new g))) gs) = BOk (map norm_group gs)).
    { intros gs. rewrite bmap_map. apply bmap_ok. intros g _. unfold dec_group. cbn [fst snd]. rewrite !bmap_frags. reflexivity. }
    destruct groups as [|g gs]; cbn [map].
    + rewrite E. reflexivity.
    + rewrite <- (map_cons (fun g => (map enc_frag (gr_old g), map enc_frag (gr_new g)))). rewrite G. cbn [TxnModel.bbind]. rewrite E. reflexivity.
  - rewrite bmap_map, (bmap_ok _ _ _ (fun x => x)), map_id; [reflexivity|]. intros [i f] _. unfold dec_replacement. cbn [fst snd]. rewrite dec_enc_file. reflexivity.
  - rewrite dec_fields_ok by exact K. reflexivity.
  - rewrite dec_fields_ok by exact K. reflexivity.
  - rewrite !dec_nil. reflexivity.
Qed.
Theorem txn_reread : forall ser deser t, roaring_codec ser deser -> txn_ok t ->
  bbind (enc_txn ser t) (dec_txn deser) = BOk (reread_txn t).
Proof.
  intros ser deser [r u o b tg] C (K1 & K2 & K3). unfold enc_txn, reread_txn. cbn in K1, K2, K3 |- *.
  destruct b as [b|]; cbn.
  - specialize (K2 b eq_refl). destruct b; cbn in K2; try contradiction.
    + cbn. unfold dec_txn. cbn [pt_op pt_blob pt_read pt_uuid pt_tag]. rewrite op_roundtrip by assumption. cbn. rewrite bmap_frags. cbn. rewrite empty_or by exact K3. reflexivity.
    + cbn. unfold dec_txn. cbn [pt_op pt_blob pt_read pt_uuid pt_tag]. rewrite op_roundtrip by assumption. cbn. rewrite bmap_frags. cbn. rewrite dec_fields_ok by exact K2. cbn.
      rewrite dec_upsert_inv, empty_or by exact K3. reflexivity.
  - unfold dec_txn. cbn [pt_op pt_blob pt_read pt_uuid pt_tag]. rewrite op_roundtrip by assumption. cbn. rewrite empty_or by exact K3. reflexivity.
Qed.

(* the transactions that survive unchanged *)
Definition counted_all (fs : list frag) : Prop := Forall counted fs.
Definition faithful_op (o : rop) : Prop :=
  match o with
  | RAppend fs | RDelete fs _ _ => counted_all fs
  | ROverwrite fs s up => counted_all fs /\ rs_meta s = [] /\ up = Some []
  | RCreateIndex _ _ | RDataReplacement _ | RRestore _ | RReserveFragments _ => True
  | RRewrite gs _ => gs <> [] /\ Forall (fun g => counted_all (gr_old g) /\ counted_all (gr_new g)) gs
  | RMerge fs s => counted_all fs /\ rs_meta s = []
  | RUpdate _ u n => counted_all u /\ counted_all n
  | RProject s => rs_meta s = []
  | RUpdateConfig up de sm fm => up <> Some [] /\ de <> Some [] /\ sm <> Some [] /\ fm <> Some []
  end.
Lemma norm_all : forall fs, counted_all fs <-> map norm_frag fs = fs.
Proof.
  induction fs as [|f t IH]; [split; [reflexivity|constructor]|]. split.
  - intros H. inversion H; subst. cbn. rewrite norm_counted by assumption. f_equal. apply IH. assumption.
  - cbn. intros [= E1 E2]. constructor; [|apply IH; exact E2]. apply frag_roundtrip_iff. rewrite frag_roundtrip, E1. reflexivity.
Qed.
Lemma no_meta_iff : forall s, no_meta s = s <-> rs_meta s = [].
Proof. intros [f m]. unfold no_meta. cbn. split; [intros [= <-]; reflexivity|intros ->; reflexivity]. Qed.
Lemma inverted_iff : forall u, inverted u = u <-> u = Some [].
Proof. intros [[|]|]; cbn; split; congruence. Qed.
Lemma present_iff : forall A (u : option (list A)), present u = u <-> u <> Some [].
Proof. intros A [[|]|]; cbn; split; congruence. Qed.
Theorem reread_op_iff : forall o, reread_op o = o <-> faithful_op o.
Proof.
  intros [fs|u d p|fs s up|n r|gs rw|r|fs s|v|n|r u n|s|up de sm fm]; cbn [reread_op faithful_op]; try tauto.
  - rewrite norm_all. split; congruence.
  - rewrite norm_all. split; congruence.
  - rewrite norm_all, <- no_meta_iff, <- inverted_iff. split; [intros [= E1 E2 E3]; auto|intros (E1 & E2 & E3); congruence].
  - destruct gs as [|g t]; [split; [discriminate|intros [X _]; contradiction X; reflexivity]|].
    assert (E : map norm_group (g :: t) = g :: t <-> Forall (fun g => counted_all (gr_old g) /\ counted_all (gr_new g)) (g :: t)).
    { generalize (g :: t). induction l as [|x l IH]; [split; [constructor|reflexivity]|]. cbn [map]. split.
      - intros [= E1 E2]. constructor; [|apply IH; exact E2]. destruct x as [o n]. unfold norm_group in E1. cbn in *. injection E1 as A B. rewrite !norm_all. auto.
      - intros H. inversion H as [|? ? [A B] H2]; subst. rewrite norm_all in A, B. apply IH in H2. rewrite H2. f_equal. destruct x. unfold norm_group. cbn in *. congruence. }
    revert E. generalize (map norm_group (g :: t)) (g :: t) (@nil_cons _ g t). intros a b NE E. rewrite <- E. split; [intros [= ->]; split; congruence|intros [_ ->]; reflexivity].
  - rewrite norm_all, <- no_meta_iff. split; [intros [= E1 E2]; auto|intros (E1 & E2); congruence].
  - rewrite !norm_all. split; [intros [= E1 E2]; auto|intros (E1 & E2); congruence].
  - rewrite <- no_meta_iff. split; congruence.
  - pose proof (present_iff _ up) as Q1. pose proof (present_iff _ de) as Q2. pose proof (present_iff _ sm) as Q3. pose proof (present_iff _ fm) as Q4.
    unfold smap in *. rewrite <- Q1, <- Q2, <- Q3, <- Q4. split; [intros [= E1 E2 E3 E4]; auto|intros (E1 & E2 & E3 & E4); congruence].
Qed.
Theorem txn_roundtrip_iff : forall ser deser t, roaring_codec ser deser -> txn_ok t ->
  (bbind (enc_txn ser t) (dec_txn deser) = BOk t <-> faithful_op (rt_op t) /\ forall b, rt_blob t = Some b -> faithful_op b).
Proof.
  intros ser deser t C K. rewrite txn_reread by assumption. rewrite <- reread_op_iff. destruct t as [r u o b tg]. unfold reread_txn. cbn. split.
  - intros [= E1 E2]. split; [exact E1|]. intros x ->. cbn in E2. injection E2 as E2. apply reread_op_iff. exact E2.
  - intros [E1 E2]. rewrite E1. f_equal. f_equal. destruct b as [b|]; [|reflexivity]. cbn. f_equal. apply reread_op_iff. apply E2. reflexivity.
Qed.
