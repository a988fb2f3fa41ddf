(* C41, C45, C77: concrete manifests and transactions. *)
From Coq Require Import List Arith NArith ZArith Bool Lia String.
From Verif Require Import Lib SchemaModel SchemaProofs PbModel PbProofs PbMem.
From Verif Require TxnModel.
Import ListNotations.
Local Open Scope N_scope.

Definition at_ (nm : string) (i p : Z) (md : smap) : attrs :=
  {| a_name := nm; a_id := i; a_parent := p; a_type := "int32"; a_meta := md; a_enc := Some EPlain; a_null := true; a_dict := None; a_storage := SDefault |}.
Definition blob_ (nm : string) (i p : Z) : attrs :=
  {| a_name := nm; a_id := i; a_parent := p; a_type := "large_binary"; a_meta := [("ARROW:extension:name", "x")]%string; a_enc := None; a_null := false; a_dict := Some {| di_offset := 3; di_length := 9; di_values := None |}; a_storage := SBlob |}.
Definition tree : list rfield := [RF (at_ "s" 0 (-1) []) [RF (at_ "a" 4 0 []) [RF (at_ "b" 2 4 [("k", "v")]%string) []]; RF (at_ "c" 7 0 []) []]; RF (blob_ "d" 1 (-1)) []].
Definition ex_schema : rschema := {| rs_fields := tree; rs_meta := [("m", "1")]%string |}.
Definition ex_file : data_file := {| fl_path := "x.lance"; fl_fields := [0; 4; 2; 7; 1]%Z; fl_columns := [0; 1; 2]%Z; fl_major := 2; fl_minor := 0 |}.
Definition ex_frag : frag := {| fr_id := 3; fr_files := [ex_file]; fr_del := Some {| dn_read := 4; dn_id := 99; dn_type := DBitmap; dn_count := Some 2 |}; fr_rowids := Some (Inline [8; 1]); fr_rows := Some 10 |}.
Definition ex_frag2 : frag := {| fr_id := 5; fr_files := [ex_file]; fr_del := None; fr_rowids := Some (External {| xf_path := "r"; xf_offset := 0; xf_size := 8 |}); fr_rows := Some 4 |}.
Definition ex_manifest : rmanifest :=
  {| rm_schema := ex_schema; rm_local := {| rs_fields := [hd (RF (at_ "" 0 0 []) []) tree]; rs_meta := [("m", "1")]%string |}; rm_version := 12; rm_writer := Some ("lance", "0.24")%string; rm_fragments := [ex_frag; ex_frag2];
     rm_aux := 0; rm_index_section := Some 40; rm_nanos := 1700000000123456789; rm_tag := Some "t"%string; rm_rflags := 3; rm_wflags := 11; rm_max := 5; rm_txn := Some "0-u.txn"%string;
     rm_offsets := [0; 8; 12]; rm_next_row := 14; rm_format := {| sf_format := "lance"; sf_version := "2.0" |}; rm_config := [("a", "b")]%string; rm_blob := Some 2 |}.
Definition toy_ser (b : list N) : list N := 1 :: b.
Definition toy_deser (b : list N) : option (list N) := match b with 1 :: t => Some t | _ => None end.
Lemma toy_codec : roaring_codec toy_ser toy_deser.
Proof. intros b. split; [discriminate|reflexivity]. Qed.

Ltac place := repeat first [apply Forall_nil | apply Forall_cons | apply placed_intro; [reflexivity|first [left; reflexivity|right; discriminate]|]].
Lemma tree_ok : schema_ok tree.
Proof.
  split; [|split].
  - unfold tree. place.
  - vm_compute. repeat constructor; vm_compute; intuition discriminate.
  - cbn. repeat apply Forall_cons; try apply Forall_nil; intros d E; cbn in E; first [discriminate E|injection E as <-; split; reflexivity].
Qed.
Lemma tree_arrays : no_arrays tree.
Proof. intros f d I. cbn in I. repeat (destruct I as [<-|I]; [cbn; first [discriminate|intros [= <-]; reflexivity]|]). contradiction. Qed.
Lemma ex_manifest_ok : manifest_ok ex_manifest.
Proof.
  apply Build_manifest_ok; [exact tree_ok|exact tree_arrays|reflexivity|reflexivity| | |reflexivity|discriminate|discriminate|discriminate].
  - intros f d [<-|[<-|[]]]; cbn; [intros [= <-]|discriminate]; discriminate.
  - intros _ f [<-|[<-|[]]]; discriminate.
Qed.
Example manifest_instance : dec_manifest (enc_manifest ex_manifest) = BOk ex_manifest.
Proof. apply manifest_roundtrip_counted; [exact ex_manifest_ok|]. repeat constructor; cbn; try discriminate. intros d [= <-]; discriminate. Qed.
Definition ex_index : ixmeta := {| im_uuid := repeat 7 16; im_fields := [4%Z]; im_name := "i"; im_version := 3; im_bitmap := Some [3; 5]; im_details := Some {| an_url := "/x"; an_value := [1; 2] |} |}.
Example index_instance : dec_index toy_deser (enc_index toy_ser ex_index) = BOk ex_index.
Proof. apply index_roundtrip; [exact toy_codec|reflexivity]. Qed.

(* ---- C45: what does not survive ---- *)
(* two fields with one id: the second one's child is moved under the first *)
Definition twins : list rfield := [RF (at_ "a" 0 (-1) []) [RF (at_ "x" 1 0 []) []]; RF (at_ "b" 0 (-1) []) [RF (at_ "y" 2 0 []) []]].
Theorem duplicate_ids_refuted : exists l, Forall (placed (-1)) l /\ no_arrays l /\ schema_of_protos (schema_protos l) =
  Some [RF (at_ "a" 0 (-1) []) [RF (at_ "x" 1 0 []) []; RF (at_ "y" 2 0 []) []]; RF (at_ "b" 0 (-1) []) []] /\ schema_of_protos (schema_protos l) <> Some l.
Proof.
  exists twins. split; [|split; [|split]].
  - unfold twins. place.
  - intros f d I. cbn in I. repeat (destruct I as [<-|I]; [cbn; discriminate|]). contradiction.
  - reflexivity.
  - vm_compute. discriminate.
Qed.
(* fields whose ids have not been assigned lose their structure *)
Theorem unassigned_ids_refuted : schema_of_protos (schema_protos [RF (at_ "a" (-1) (-1) []) [RF (at_ "x" (-1) (-1) []) []]]) =
  Some [RF (at_ "a" (-1) (-1) []) []; RF (at_ "x" (-1) (-1) []) []].
Proof. reflexivity. Qed.
(* a deletion file that counts no rows makes its fragment's length unknown, and shifts the offsets *)
Definition zero_del : frag := {| fr_id := 0; fr_files := [ex_file]; fr_del := Some {| dn_read := 1; dn_id := 1; dn_type := DArray; dn_count := Some 0 |}; fr_rowids := None; fr_rows := Some 10 |}.
Theorem zero_deletions_refuted : exists f, compute_offsets [f] = BOk [0; 10] /\ exists g, dec_frag (enc_frag f) = BOk g /\ compute_offsets [g] = BOk [0; 0].
Proof. exists zero_del. split; [reflexivity|]. eexists. split; reflexivity. Qed.
(* a manifest that claims stable row ids but has a fragment without them cannot be read *)
Theorem missing_row_ids_unreadable : forall m, schema_ok (rs_fields (rm_schema m)) -> (exists offs, compute_offsets (map norm_frag (rm_fragments m)) = BOk offs) ->
  N.land 2 (rm_rflags m) <> 0 -> (exists f, In f (rm_fragments m) /\ fr_rowids f = None) -> dec_manifest (enc_manifest m) = BErr.
Proof.
  intros m H1 [offs HO] H2 (f & If & Ef). unfold dec_manifest, enc_manifest. cbn [pm_fragments pm_rflags]. rewrite bmap_frags. cbn [TxnModel.bbind]. rewrite HO. cbn [TxnModel.bbind].
  destruct (N.eqb_spec (N.land 2 (rm_rflags m)) 0); [contradiction|]. cbn.
  assert (A : forallb (fun f => TxnModel.is_some (fr_rowids f)) (map norm_frag (rm_fragments m)) = false).
  { apply not_true_is_false. intros X. rewrite forallb_forall in X. specialize (X (norm_frag f) (in_map norm_frag _ _ If)). cbn in X. rewrite Ef in X. discriminate. }
  rewrite A. reflexivity.
Qed.

(* ---- C41 ---- *)
Definition ex_txn (o : rop) : rtxn := {| rt_read := 4; rt_uuid := "u"; rt_op := o; rt_blob := None; rt_tag := None |}.
Definition survives (t : rtxn) : Prop := bbind (enc_txn toy_ser t) (dec_txn toy_deser) = BOk t.
Theorem overwrite_refuted : exists t, txn_ok t /\ ~ survives t /\
  bbind (enc_txn toy_ser t) (dec_txn toy_deser) = BOk (ex_txn (ROverwrite [ex_frag] {| rs_fields := tree; rs_meta := [] |} None)).
Proof.
  exists (ex_txn (ROverwrite [ex_frag] ex_schema (Some [("k", "v")]%string))). split; [|split].
  - split; [exact (conj tree_ok tree_arrays)|split; [discriminate|discriminate]].
  - unfold survives. rewrite (txn_roundtrip_iff toy_ser toy_deser); [|exact toy_codec|split; [exact (conj tree_ok tree_arrays)|split; [discriminate|discriminate]]].
    intros [(_ & X & _) _]. discriminate X.
  - rewrite txn_reread; [|exact toy_codec|split; [exact (conj tree_ok tree_arrays)|split; [discriminate|discriminate]]]. reflexivity.
Qed.
Theorem empty_rewrite_refuted : bbind (enc_txn toy_ser (ex_txn (RRewrite [] []))) (dec_txn toy_deser) = BOk (ex_txn (RRewrite [{| gr_old := []; gr_new := [] |}] [])).
Proof. reflexivity. Qed.
Theorem clear_metadata_refuted : bbind (enc_txn toy_ser (ex_txn (RUpdateConfig None None (Some []) None))) (dec_txn toy_deser) = BOk (ex_txn (RUpdateConfig None None None None)).
Proof. reflexivity. Qed.
Theorem project_metadata_refuted : exists s, rschema_ok s /\ bbind (enc_txn toy_ser (ex_txn (RProject s))) (dec_txn toy_deser) = BOk (ex_txn (RProject {| rs_fields := rs_fields s; rs_meta := [] |})) /\ rs_meta s <> [].
Proof.
  exists ex_schema. split; [exact (conj tree_ok tree_arrays)|]. split; [|discriminate].
  rewrite txn_reread; [reflexivity|exact toy_codec|]. split; [exact (conj tree_ok tree_arrays)|split; discriminate].
Qed.
Lemma ex_counted : counted ex_frag.
Proof. split; [discriminate|]. intros d [= <-]. discriminate. Qed.
Example update_instance : survives (ex_txn (RUpdate [1] [ex_frag] [ex_frag])).
Proof. apply txn_roundtrip_iff; [exact toy_codec|split; [exact Logic.I|split; discriminate]|]. split; [|discriminate]. repeat constructor; try discriminate; intros d [= <-]; discriminate. Qed.
Example rewrite_instance : survives (ex_txn (RRewrite [{| gr_old := [ex_frag]; gr_new := [ex_frag] |}] [(repeat 1 16, repeat 2 16)])).
Proof.
  apply txn_roundtrip_iff; [exact toy_codec|split; [repeat constructor|split; discriminate]|]. split; [|discriminate]. split; [discriminate|].
  constructor; [|constructor]. split; (apply Forall_cons; [exact ex_counted|apply Forall_nil]).
Qed.

(* ---- C77 ---- *)
Definition ex_asm : assembly := {| as_writer := ("lance", "0.24")%string; as_format := {| sf_format := "lance"; sf_version := "2.0" |}; as_blob := None; as_tag := None; as_flags := Some true;
                                   as_nanos := 1700000000000000000; as_path := "12-u.txn"; as_next := Some 14 |}.
Lemma ex_asm_ok : assembly_ok (Some ex_manifest) ex_schema [ex_frag; ex_frag2] ex_asm.
Proof.
  apply Build_assembly_ok; [exact tree_ok|exact tree_arrays| |reflexivity|discriminate|discriminate|discriminate|].
  - constructor; [exact ex_counted|constructor; [|constructor]]. split; discriminate.
  - intros p [= <-]. discriminate.
Qed.
Definition ok {A} (d : A) (r : bres A) : A := match r with BOk a => a | _ => d end.
Definition delete_manifest : rmanifest := Eval vm_compute in ok ex_manifest (assemble (RDelete [ex_frag] [] "x > 3") (Some ex_manifest) ex_schema [ex_frag; ex_frag2] ex_asm).
Example delete_instance : assemble (RDelete [ex_frag] [] "x > 3") (Some ex_manifest) ex_schema [ex_frag; ex_frag2] ex_asm = BOk delete_manifest /\ dec_manifest (enc_manifest delete_manifest) = BOk delete_manifest.
Proof.
  assert (A : assemble (RDelete [ex_frag] [] "x > 3") (Some ex_manifest) ex_schema [ex_frag; ex_frag2] ex_asm = BOk delete_manifest) by (vm_compute; reflexivity).
  split; [exact A|]. apply (proj2 (assembled_reloads _ _ _ _ _ _ ex_asm_ok A)). reflexivity.
Qed.
Theorem stale_local_schema_refuted : exists o prev s fs c m, assembly_ok prev s fs c /\ assemble o prev s fs c = BOk m /\ rs_meta (rm_schema m) = [("new", "2")]%string /\ rs_meta (rm_local m) = [("m", "1")]%string /\
  dec_manifest (enc_manifest m) <> BOk m /\ exists m', dec_manifest (enc_manifest m) = BOk m' /\ rs_meta (rm_local m') = [("new", "2")]%string.
Proof.
  set (o := RUpdateConfig None None (Some [("new", "2")]%string) None).
  assert (A : exists m, assemble o (Some ex_manifest) ex_schema [ex_frag; ex_frag2] ex_asm = BOk m /\ rs_meta (rm_schema m) = [("new", "2")]%string /\ rs_meta (rm_local m) = [("m", "1")]%string).
  { eexists. split; [vm_compute; reflexivity|split; reflexivity]. }
  destruct A as (m & A & E1 & E2). exists o, (Some ex_manifest), ex_schema, [ex_frag; ex_frag2], ex_asm, m.
  destruct (assembled_reloads _ _ _ _ _ _ ex_asm_ok A) as [G _]. repeat apply conj; try assumption; [exact ex_asm_ok| |].
  - rewrite G. intros X. injection X as X. rewrite <- X in E2. cbn in E2. rewrite E1 in E2. discriminate.
  - eexists. split; [exact G|]. cbn. exact E1.
Qed.
(* the same for the metadata of one field *)
Theorem stale_field_metadata_refuted : exists o prev s fs c m, assembly_ok prev s fs c /\ assemble o prev s fs c = BOk m /\
  map (fun f => a_meta (r_attrs f)) (fields_pre_order (rs_fields (rm_schema m))) = [[]; [("new", "2")]; [("k", "v")]; []; [("ARROW:extension:name", "x")]]%string /\
  map (fun f => a_meta (r_attrs f)) (fields_pre_order (rs_fields (rm_local m))) = [[]; []; [("k", "v")]; []]%string.
Proof.
  exists (RUpdateConfig None None None (Some [(4, [("new", "2")]%string)])), (Some ex_manifest), ex_schema, [ex_frag; ex_frag2], ex_asm. eexists.
  split; [exact ex_asm_ok|]. split; [vm_compute; reflexivity|]. split; reflexivity.
Qed.

(* ---- ids of new fields (C78) ---- *)
Definition unassigned : list rfield := [RF (at_ "s" 0 (-1) []) [RF (at_ "a" (-1) 0 []) [RF (at_ "b" (-1) (-1) []) []]]; RF (at_ "d" 1 (-1) []) []; RF (at_ "e" (-1) (-1) []) []].
Example set_field_id_instance : map r_id (fields_pre_order (set_field_id (Some 9%Z) unassigned)) = [0; 10; 11; 1; 12]%Z.
Proof. reflexivity. Qed.
