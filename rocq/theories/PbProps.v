(* C41, C45, C77: protobuf forms of schemas, fragments, indices, manifests and transactions. *)
From Coq Require Import List Arith NArith ZArith Bool Permutation Sorted.
From Verif Require Import Lib SchemaModel SchemaProofs PbModel PbProofs PbMem PbExamples.
Import ListNotations.
From Coq Require Import String.
From Verif Require TxnModel.
Open Scope list_scope.
Local Open Scope N_scope.

(* every fragment survives, except that a count of zero is read as unknown *)
Theorem C45_fragment_roundtrip : forall f, dec_frag (enc_frag f) = BOk (norm_frag f).
Proof. exact @frag_roundtrip. Qed.
Print Assumptions C45_fragment_roundtrip.

(* exactly the fragments without a zero count survive unchanged *)
Theorem C45_fragment_roundtrip_iff : forall f, dec_frag (enc_frag f) = BOk f <-> counted f.
Proof. exact @frag_roundtrip_iff. Qed.
Print Assumptions C45_fragment_roundtrip_iff.

(* index records survive, for any roaring codec that decodes what it encodes *)
Theorem C45_index_roundtrip : forall ser deser i, roaring_codec ser deser -> List.length (im_uuid i) = 16%nat ->
  dec_index deser (enc_index ser i) = BOk i.
Proof. exact @index_roundtrip. Qed.
Print Assumptions C45_index_roundtrip.

(* a tree of fields is rebuilt from its flat form *)
Theorem C45_schema_roundtrip : forall s, schema_ok (rs_fields s) ->
  dec_schema (enc_schema s) = Some {| rs_fields := map strip (rs_fields s); rs_meta := rs_meta s |}.
Proof. exact @schema_roundtrip. Qed.
Print Assumptions C45_schema_roundtrip.

(* manifests survive *)
Theorem C45_manifest_roundtrip : forall m, manifest_ok m -> dec_manifest (enc_manifest m) = BOk (norm_manifest m).
Proof. exact @manifest_roundtrip. Qed.
Print Assumptions C45_manifest_roundtrip.

(* manifests without zero row counts survive unchanged *)
Theorem C45_manifest_roundtrip_counted : forall m, manifest_ok m -> Forall counted (rm_fragments m) -> dec_manifest (enc_manifest m) = BOk m.
Proof. exact @manifest_roundtrip_counted. Qed.
Print Assumptions C45_manifest_roundtrip_counted.

(* a manifest with the stable-row-id flag and a fragment without row ids cannot be loaded *)
Theorem C45_missing_row_ids_unreadable : forall m, schema_ok (rs_fields (rm_schema m)) -> (exists offs, compute_offsets (map norm_frag (rm_fragments m)) = BOk offs) ->
  N.land 2 (rm_rflags m) <> 0 -> (exists f, In f (rm_fragments m) /\ fr_rowids f = None) -> dec_manifest (enc_manifest m) = BErr.
Proof. exact @missing_row_ids_unreadable. Qed.
Print Assumptions C45_missing_row_ids_unreadable.

(* not without distinct field ids *)
Theorem C45_duplicate_ids_refuted : exists l, Forall (placed (-1)) l /\ no_arrays l /\ schema_of_protos (schema_protos l) =
  Some [RF (at_ "a" 0 (-1) []) [RF (at_ "x" 1 0 []) []; RF (at_ "y" 2 0 []) []]; RF (at_ "b" 0 (-1) []) []] /\ schema_of_protos (schema_protos l) <> Some l.
Proof. exact @duplicate_ids_refuted. Qed.
Print Assumptions C45_duplicate_ids_refuted.

(* not without assigned field ids *)
Theorem C45_unassigned_ids_refuted : schema_of_protos (schema_protos [RF (at_ "a" (-1) (-1) []) [RF (at_ "x" (-1) (-1) []) []]]) =
  Some [RF (at_ "a" (-1) (-1) []) []; RF (at_ "x" (-1) (-1) []) []].
Proof. exact @unassigned_ids_refuted. Qed.
Print Assumptions C45_unassigned_ids_refuted.

(* not the offsets of a fragment whose deletion file counts no rows *)
Theorem C45_zero_deletions_refuted : exists f, compute_offsets [f] = BOk [0; 10] /\ exists g, dec_frag (enc_frag f) = BOk g /\ compute_offsets [g] = BOk [0; 0].
Proof. exact @zero_deletions_refuted. Qed.
Print Assumptions C45_zero_deletions_refuted.

(* what every transaction looks like when read back *)
Theorem C41_reread_partial : forall ser deser t, roaring_codec ser deser -> txn_ok t ->
  bbind (enc_txn ser t) (dec_txn deser) = BOk (reread_txn t).
Proof. exact @txn_reread. Qed.
Print Assumptions C41_reread_partial.

(* exactly which transactions are read back unchanged *)
Theorem C41_roundtrip_iff_partial : forall ser deser t, roaring_codec ser deser -> txn_ok t ->
  (bbind (enc_txn ser t) (dec_txn deser) = BOk t <-> faithful_op (rt_op t) /\ forall b, rt_blob t = Some b -> faithful_op b).
Proof. exact @txn_roundtrip_iff. Qed.
Print Assumptions C41_roundtrip_iff_partial.

(* an overwrite loses its config updates and schema metadata *)
Theorem C41_overwrite_refuted : exists t, txn_ok t /\ ~ survives t /\
  bbind (enc_txn toy_ser t) (dec_txn toy_deser) = BOk (ex_txn (ROverwrite [ex_frag] {| rs_fields := tree; rs_meta := [] |} None)).
Proof. exact @overwrite_refuted. Qed.
Print Assumptions C41_overwrite_refuted.

(* a rewrite of no groups gains an empty group *)
Theorem C41_empty_rewrite_refuted : bbind (enc_txn toy_ser (ex_txn (RRewrite [] []))) (dec_txn toy_deser) = BOk (ex_txn (RRewrite [{| gr_old := []; gr_new := [] |}] [])).
Proof. exact @empty_rewrite_refuted. Qed.
Print Assumptions C41_empty_rewrite_refuted.

(* clearing the schema metadata is read back as no change *)
Theorem C41_clear_metadata_refuted : bbind (enc_txn toy_ser (ex_txn (RUpdateConfig None None (Some []) None))) (dec_txn toy_deser) = BOk (ex_txn (RUpdateConfig None None None None)).
Proof. exact @clear_metadata_refuted. Qed.
Print Assumptions C41_clear_metadata_refuted.

(* a projection loses its schema metadata *)
Theorem C41_project_metadata_refuted : exists s, rschema_ok s /\ bbind (enc_txn toy_ser (ex_txn (RProject s))) (dec_txn toy_deser) = BOk (ex_txn (RProject {| rs_fields := rs_fields s; rs_meta := [] |})) /\ rs_meta s <> [].
Proof. exact @project_metadata_refuted. Qed.
Print Assumptions C41_project_metadata_refuted.

(* the loaded manifest differs from the one in memory at most in local_schema, and not at all unless metadata was replaced *)
Theorem C77_reloaded_partial : forall o prev s fs c m, assembly_ok prev s fs c -> assemble o prev s fs c = BOk m ->
  dec_manifest (enc_manifest m) = BOk (set_local m (retain_storage_class SDefault (rm_schema m))) /\
  (replaces_metadata o = false -> dec_manifest (enc_manifest m) = BOk m).
Proof. exact @assembled_reloads. Qed.
Print Assumptions C77_reloaded_partial.

(* replacing schema metadata leaves the old metadata in local_schema *)
Theorem C77_stale_schema_metadata_refuted : exists o prev s fs c m, assembly_ok prev s fs c /\ assemble o prev s fs c = BOk m /\ rs_meta (rm_schema m) = [("new", "2")]%string /\ rs_meta (rm_local m) = [("m", "1")]%string /\
  dec_manifest (enc_manifest m) <> BOk m /\ exists m', dec_manifest (enc_manifest m) = BOk m' /\ rs_meta (rm_local m') = [("new", "2")]%string.
Proof. exact @stale_local_schema_refuted. Qed.
Print Assumptions C77_stale_schema_metadata_refuted.

(* likewise for field metadata *)
Theorem C77_stale_field_metadata_refuted : exists o prev s fs c m, assembly_ok prev s fs c /\ assemble o prev s fs c = BOk m /\
  map (fun f => a_meta (r_attrs f)) (fields_pre_order (rs_fields (rm_schema m))) = [[]; [("new", "2")]; [("k", "v")]; []; [("ARROW:extension:name", "x")]]%string /\
  map (fun f => a_meta (r_attrs f)) (fields_pre_order (rs_fields (rm_local m))) = [[]; []; [("k", "v")]; []]%string.
Proof. exact @stale_field_metadata_refuted. Qed.
Print Assumptions C77_stale_field_metadata_refuted.
