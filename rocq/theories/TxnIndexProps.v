(* C44: what an index claims about the fragments of a version. *)
From Coq Require Import List Arith NArith ZArith Bool Permutation Sorted.
From Verif Require Import Lib AMap TreeMapModel SerdeModel TxnModel TxnSpec TxnLemmas TxnIdsProofs TxnFrame TxnRowIds TxnExamples TxnIndexSpec TxnIndexProofs TxnIndexExamples.
Import ListNotations.
Local Open Scope N_scope.

(* Missing: without enough_checked the claim is false (the _refuted theorems below); the commit loop does not enforce it. *)
Theorem C44_claims_hold_partial : forall w h, good h -> all_entries (writer_honest w) h -> all_entries enough_checked h -> forall e, In e h -> claims_true w e.
Proof. exact @claims_hold. Qed.
Print Assumptions C44_claims_hold_partial.

(* The bitmap after a compaction: defined exactly when no group is partly covered, and then the covered groups' old fragments are replaced by their new ones. *)
Theorem C44_recalculate_exact : forall b gs, (forall i, In i (old_of gs) \/ In i (new_of gs) -> i < two32) -> (forall i, In i (new_of gs) -> ~ In i (old_of gs)) ->
  ((exists b', recalculate_fragment_bitmap b gs = BOk b') <-> forall g o o', In g gs -> In o (rg_old g) -> In o' (rg_old g) -> In (f_id o) b -> In (f_id o') b) /\
  forall b', recalculate_fragment_bitmap b gs = BOk b' -> forall i,
    In i b' <-> (In i b /\ ~ In i (old_of gs)) \/ exists g o n, In g gs /\ In o (rg_old g) /\ In (f_id o) b /\ In n (rg_new g) /\ f_id n = i.
Proof. exact @recalculate_exact. Qed.
Print Assumptions C44_recalculate_exact.

(* merge_insert of some columns rewrites an indexed column in place; the index keeps listing the fragment. *)
Theorem C44_update_in_place_refuted : broken_by (fun h t => exists m f u z x, t_op t = Update [] [u] [] /\ latest h = Some m /\ man_at h (t_read t) = Some m /\ In f (m_fragments m) /\
  rewritten_in_place z f u /\ option_map e_idx (last_entry h) = Some [x] /\ In z (ix_fields x)).
Proof. exact @update_in_place_refuted. Qed.
Print Assumptions C44_update_in_place_refuted.

(* The same, committed while the index was built. *)
Theorem C44_index_after_update_refuted : broken_by (fun h t => exists m0 m f u z x, t_op t = CreateIndex [x] [] /\ In z (ix_fields x) /\ man_at h (t_read t) = Some m0 /\ latest h = Some m /\ In f (m_fragments m0) /\ In u (m_fragments m) /\
  rewritten_in_place z f u).
Proof. exact @index_after_update_refuted. Qed.
Print Assumptions C44_index_after_update_refuted.

(* Fragment id 0 is given out again while the index was built. *)
Theorem C44_index_after_reuse_refuted : broken_by (fun h t => exists x ids l, t_op t = CreateIndex [x] [] /\ map (fun e => t_op (e_txn e)) (since h (t_read t)) = [Delete [] ids; Append l]).
Proof. exact @index_after_reuse_refuted. Qed.
Print Assumptions C44_index_after_reuse_refuted.

(* A data replacement of an indexed column. *)
Theorem C44_replacement_refuted : broken_by (fun h t => exists d x z id, t_op t = DataReplacement [(id, d)] /\ option_map e_idx (last_entry h) = Some [x] /\ In z (ix_fields x) /\ In z (df_fields d) /\
  since h (t_read t) = []).
Proof. exact @replacement_refuted. Qed.
Print Assumptions C44_replacement_refuted.

(* The index is committed on a field that no longer exists. *)
Theorem C44_index_after_drop_refuted : broken_by (fun h t => exists x z m, t_op t = CreateIndex [x] [] /\ In z (ix_fields x) /\ latest h = Some m /\ ~ In z (field_ids (m_schema m))).
Proof. exact @index_after_drop_refuted. Qed.
Print Assumptions C44_index_after_drop_refuted.

(* a history meeting the hypotheses of C44_claims_hold_partial *)
Example C44_covered_example : good (hist covered_h) /\ all_entries (writer_honest ex_world) (hist covered_h) /\ all_entries enough_checked (hist covered_h) /\
  length (hist covered_h) = 7%nat /\ map (fun e => map ix_uuid (e_idx e)) (hist covered_h) = [[]; []; [101]; [101]; [101]; [102]; [102]] /\
  map (fun e => map ix_bitmap (e_idx e)) (skipn 4 (hist covered_h)) = [[Some [0; 1]]; [Some [2]]; [Some [2]]] /\ map (fun e => frag_ids (e_man e)) (skipn 4 (hist covered_h)) = [[0; 1]; [2]; [2; 4]].
Proof. exact @covered_example. Qed.
Print Assumptions C44_covered_example.

(* and its conclusion, on live rows *)
Example C44_covered_claims : claims_true ex_world (nth_entry 6 covered_h) /\ exists x b f, In x (e_idx (nth_entry 6 covered_h)) /\ ix_bitmap x = Some b /\ In f (m_fragments (e_man (nth_entry 6 covered_h))) /\
  In (f_id f) b /\ live ex_world f 8.
Proof. exact @covered_claims. Qed.
Print Assumptions C44_covered_claims.
