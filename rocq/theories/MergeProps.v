(* C85-C89: UPDATE and MERGE INSERT against what SQL would do, with and without an index, in place, and concurrently. *)
From Coq Require Import List Arith NArith ZArith Bool Permutation Sorted.
From Verif Require Import Lib AMap SerdeModel DeletionModel DeletionSpec DeletionProofs MergeModel MergeSpec MergeProofs MergeProofs2 MergeExamples TreeMapModel TxnModel TxnSpec TxnLemmas TxnIdsProofs TxnFrame TxnRowIds TxnRewrite TxnExamples MergeConc.
Import ListNotations.
Local Open Scope N_scope.

(* without stable row ids, with assignments reading no other assigned column: the table afterwards is the SQL update; missing: the two cases refuted below *)
Theorem C85_update_exact_partial : forall cond ups t new, table_ok t -> addressed t ->
  NoDup (map fst ups) -> reads_only_own ups ->
  (forall r, In r (contents t) -> forall c, In c (map fst ups) -> (c < length r)%nat) ->
  written (update_output cond ups t) new ->
  exists t', update_table cond t new = Some t' /\ Permutation (contents t') (updated cond ups (contents t)) /\
    length (contents new) = length (filter (true_on cond) (contents t)).
Proof. exact @update_exact. Qed.
Print Assumptions C85_update_exact_partial.

(* assignments reading no other assigned column can be made one after another *)
Theorem C85_assignments_exact_partial : forall ups r, NoDup (map fst ups) -> reads_only_own ups ->
  (forall c, In c (map fst ups) -> (c < length r)%nat) -> apply_updates ups r = set_row ups r.
Proof. exact @apply_updates_exact. Qed.
Print Assumptions C85_assignments_exact_partial.

(* the rows removed from a table are exactly those whose addresses are listed *)
Theorem C85_deletions_exact : forall t ids new, table_ok t -> in_rows t ids ->
  exists ups rms, apply_deletions t ids = Some (ups, rms) /\
    scan (commit_update t rms ups new) = filter (fun x => negb (memN (tr_addr x) ids)) (scan t) ++ scan new /\
    (forall f, In f (commit_update t rms ups []) -> frag_ok f /\ exists g, In g t /\ tf_id f = tf_id g /\ tf_rows f = tf_rows g /\ tf_ids f = tf_ids g).
Proof. exact @deletions_exact. Qed.
Print Assumptions C85_deletions_exact.

(* SET a = b, b = a loses a value *)
Theorem C85_update_swap_refuted : exists ups t new t', table_ok t /\ addressed t /\ NoDup (map fst ups) /\
  (forall r, In r (contents t) -> forall c, In c (map fst ups) -> (c < length r)%nat) /\
  written (update_output always ups t) new /\ update_table always t new = Some t' /\
  ~ Permutation (contents t') (updated always ups (contents t)).
Proof. exact @update_swap_refuted. Qed.
Print Assumptions C85_update_swap_refuted.

(* the result depends on the iteration order of a hash map *)
Theorem C85_update_order_refuted : exists ups ups' r, Permutation ups ups' /\ NoDup (map fst ups) /\ apply_updates ups r <> apply_updates ups' r /\
  apply_updates ups r <> set_row ups r /\ apply_updates ups' r <> set_row ups r.
Proof. exact @update_order_refuted. Qed.
Print Assumptions C85_update_order_refuted.

(* with stable row ids the old row stays beside the new one, and a row that does not exist is marked deleted *)
Theorem C85_update_stable_refuted : exists cond ups t new t', table_ok t /\ stable_ok t /\ NoDup (map fst ups) /\ reads_only_own ups /\
  written (update_output cond ups t) new /\ update_table cond t new = Some t' /\
  (exists r, In r (contents t) /\ cond r = Some true /\ ~ In r (updated cond ups (contents t)) /\ In r (contents t')) /\ ~ table_ok t'.
Proof. exact @update_stable_refuted. Qed.
Print Assumptions C85_update_stable_refuted.

(* with stable row ids the update of several rows outside the first fragment fails *)
Theorem C85_update_stable_fails_refuted : exists cond t, table_ok t /\ stable_ok t /\ forall new, update_table cond t new = None.
Proof. exact @update_stable_fails_refuted. Qed.
Print Assumptions C85_update_stable_fails_refuted.

(* with stable row ids out of scan order the update fails *)
Theorem C85_update_unordered_fails_refuted : exists t, table_ok t /\ stable_ok t /\ forall new, update_table always t new = None.
Proof. exact @update_unordered_fails_refuted. Qed.
Print Assumptions C85_update_unordered_fails_refuted.

(* without stable row ids, with rows whose first columns are not all null: table and statistics are those of the SQL merge; missing: the cases refuted below *)
Theorem C86_merge_exact_partial : forall p w src t ts bs new, table_ok t -> addressed t ->
  visible p src -> visible p (contents t) ->
  Permutation ts (scan t) ->
  Permutation (concat bs) (full_join false (p_on p) src ts) ->
  written (map fst (out_rows p w bs)) new ->
  exists t', merge_table p w t bs new = Some t' /\
    Permutation (contents t') (merged p src (contents t)) /\
    out_stats p w bs = {| st_inserted := spec_inserted p src (contents t); st_updated := spec_updated p src (contents t);
                          st_deleted := spec_deleted p src (contents t) |}.
Proof. exact @merge_exact. Qed.
Print Assumptions C86_merge_exact_partial.

(* the condition holds when the key columns come first and each row has a non-null key column *)
Theorem C86_visible_keys : forall p rows, (forall c, In c (p_on p) -> (c < length (p_on p))%nat) ->
  (forall r, In r rows -> exists c, In c (p_on p) /\ nth c r None <> None) -> visible p rows.
Proof. exact @visible_keys. Qed.
Print Assumptions C86_visible_keys.

(* merging unique keys into unique keys leaves unique keys *)
Theorem C86_merge_unique : forall p w src t ts bs new t', table_ok t -> addressed t ->
  visible p src -> visible p (contents t) -> unique_keys (p_on p) src -> unique_keys (p_on p) (contents t) ->
  Permutation ts (scan t) -> Permutation (concat bs) (full_join false (p_on p) src ts) ->
  written (map fst (out_rows p w bs)) new -> merge_table p w t bs new = Some t' -> unique_keys (p_on p) (contents t').
Proof. exact @merge_unique. Qed.
Print Assumptions C86_merge_unique.

(* a matched row whose first column is null is deleted instead of updated *)
Theorem C86_merge_hidden_refuted : exists p src t, table_ok t /\ addressed t /\ keys_ok p src /\ keys_ok p (contents t) /\
  merge_wrong p src t [] /\ merged p src (contents t) = src /\ src <> [].
Proof. exact @merge_hidden_refuted. Qed.
Print Assumptions C86_merge_hidden_refuted.

(* rows with null keys are not inserted *)
Theorem C86_merge_null_key_refuted : exists p src t t', table_ok t /\ addressed t /\ p_insert p = true /\
  merge_wrong p src t t' /\ contents t' = contents t /\ exists s, In s src /\ forall r, In r (contents t) -> same_key (p_on p) s r = false.
Proof. exact @merge_null_key_refuted. Qed.
Print Assumptions C86_merge_null_key_refuted.

(* with stable row ids the old version of an updated row stays *)
Theorem C86_merge_stable_refuted : exists p src t t', table_ok t /\ stable_ok t /\ keys_ok p src /\ keys_ok p (contents t) /\ visible p src /\ visible p (contents t) /\
  merge_wrong p src t t' /\ ~ keys_ok p (contents t').
Proof. exact @merge_stable_refuted. Qed.
Print Assumptions C86_merge_stable_refuted.

(* with an index on the key: the SQL merge, if no key is null or in two source batches *)
Theorem C87_merge_indexed_exact_partial : forall p w key indexed (srcb : list (list row)) t ts bs new, table_ok t -> addressed t ->
  p_on p = [key] -> p_source p = Keep ->
  visible p (concat srcb) -> visible p (contents t) ->
  (forall s, In s (concat srcb) -> nth key s None <> None) -> keys_apart key srcb ->
  Permutation ts (indexed_targets key indexed t srcb) ->
  Permutation (concat bs) (full_join true (p_on p) (concat srcb) ts) ->
  written (map fst (out_rows p w bs)) new ->
  exists t', merge_table p w t bs new = Some t' /\
    Permutation (contents t') (merged p (concat srcb) (contents t)) /\
    out_stats p w bs = {| st_inserted := spec_inserted p (concat srcb) (contents t); st_updated := spec_updated p (concat srcb) (contents t);
                          st_deleted := spec_deleted p (concat srcb) (contents t) |}.
Proof. exact @merge_indexed_exact. Qed.
Print Assumptions C87_merge_indexed_exact_partial.

(* a key in two source batches: with an index the row is replaced more often than without *)
Theorem C87_index_duplicates_refuted : exists p srcb t, index_matters p 0 srcb t /\
  (forall s, In s (concat srcb) -> nth 0 s None <> None) /\ visible p (concat srcb) /\ visible p (contents t).
Proof. exact @index_duplicates_refuted. Qed.
Print Assumptions C87_index_duplicates_refuted.

(* with an index null keys match null keys of rows outside the index *)
Theorem C87_index_nulls_refuted : exists p srcb t, index_matters p 1 srcb t /\ visible p (concat srcb) /\ visible p (contents t) /\ length (concat srcb) = 1%nat.
Proof. exact @index_nulls_refuted. Qed.
Print Assumptions C87_index_nulls_refuted.

(* each row of each rewritten file has the value of the source row matching it, or its old value, if no row is matched twice *)
Theorem C88_partial_exact_partial : forall p w src t ts bs, table_ok t ->
  visible p src -> visible p (contents t) ->
  (forall r, In r (contents t) -> (length (filter (fun s => same_key (p_on p) s r) src) <= 1)%nat) ->
  Permutation ts (scan t) ->
  Permutation (concat bs) (left_join (p_insert p) (p_on p) src ts) ->
  (forall f old out, In f t -> concat old = map (fun x => (tr_addr x, tr_row x)) (scan_frag f) ->
     new_file f (group (tf_id f) (out_rows p w bs)) old = Some out ->
     length out = length (tf_rows f) /\
     forall o r, nth_error (tf_rows f) (N.to_nat o) = Some r -> ~ dv_has (tf_del f) o ->
       nth_error out (N.to_nat o) = Some (match filter (fun s => same_key (p_on p) s r) src with
                                          | s :: _ => if wants_update p s r then s else r
                                          | [] => r
                                          end)) /\
  (forall f b old, In f t -> concat (b :: old) = map (fun x => (tr_addr x, tr_row x)) (scan_frag f) -> b <> [] ->
     exists out, new_file f (group (tf_id f) (out_rows p w bs)) (b :: old) = Some out) /\
  (forall f, In f t -> (group (tf_id f) (out_rows p w bs) = [] <->
     forall x s, In x (scan_frag f) -> In s src -> same_key (p_on p) s (tr_row x) = true -> wants_update p s (tr_row x) = false)) /\
  Permutation (new_rows (out_rows p w bs)) (if p_insert p then unmatched p src (contents t) else []).
Proof. exact @partial_exact. Qed.
Print Assumptions C88_partial_exact_partial.

(* writing the new file succeeds *)
Theorem C88_new_file_total : forall f ups b old, frag_ok f -> sinc (map fst ups) -> (forall u, In u (map fst ups) -> In u (map tr_addr (scan_frag f))) ->
  concat (b :: old) = map (fun x => (tr_addr x, tr_row x)) (scan_frag f) -> b <> [] ->
  exists out, new_file f ups (b :: old) = Some out.
Proof. exact @new_file_total. Qed.
Print Assumptions C88_new_file_total.

(* afterwards each column of the source is read from the new file and every other column from where it was *)
Theorem C88_tombstone_owner : forall files lastf z i j, (0 <= z)%Z ->
  nth_error (nth i (tombstone (files ++ [lastf])) []) j = Some z <->
  (i = length files /\ nth_error lastf j = Some z) \/ ((i < length files)%nat /\ nth_error (nth i files []) j = Some z /\ ~ In z lastf).
Proof. exact @tombstone_owner. Qed.
Print Assumptions C88_tombstone_owner.

(* with a condition on the update, the split of the joined columns is right for full sources and wrong (a panic) for all partial ones *)
Theorem C88_update_if_panics_refuted : forall w, unzip_ok w (joined_columns false w) = true /\ unzip_ok w (joined_columns true w) = false.
Proof. exact @unzip_partial. Qed.
Print Assumptions C88_update_if_panics_refuted.

(* two source rows for one target row: a row that no source row matches is overwritten *)
Theorem C88_overwrites_refuted : exists p src t f bs out o r, table_ok t /\ In f t /\ visible p src /\ visible p (contents t) /\
  Permutation (concat bs) (left_join (p_insert p) (p_on p) src (scan t)) /\
  new_file f (group (tf_id f) (out_rows p 2 bs)) [map (fun x => (tr_addr x, tr_row x)) (scan_frag f)] = Some out /\
  nth_error (tf_rows f) o = Some r /\ ~ dv_has (tf_del f) (N.of_nat o) /\ (forall s, In s src -> same_key (p_on p) s r = false) /\
  nth_error out o <> Some r.
Proof. exact @partial_overwrites_refuted. Qed.
Print Assumptions C88_overwrites_refuted.

(* two source rows for one target row: the update of another row is dropped *)
Theorem C88_drops_refuted : exists p src t f bs out o r s, table_ok t /\ In f t /\ visible p src /\ visible p (contents t) /\
  Permutation (concat bs) (left_join (p_insert p) (p_on p) src (scan t)) /\
  new_file f (group (tf_id f) (out_rows p 2 bs)) [map (fun x => (tr_addr x, tr_row x)) (scan_frag f)] = Some out /\
  nth_error (tf_rows f) o = Some r /\ filter (fun s => same_key (p_on p) s r) src = [s] /\ wants_update p s r = true /\
  nth_error out o = Some r /\ r <> s.
Proof. exact @partial_drops_refuted. Qed.
Print Assumptions C88_drops_refuted.

(* merges changing or removing a common fragment conflict *)
Theorem C89_updates_conflict : forall rm up nw rm' up' nw' i, touches (Update rm up nw) i -> touches (Update rm' up' nw') i ->
  conflicts_with (Update rm up nw) (Update rm' up' nw') = true.
Proof. exact @updates_conflict. Qed.
Print Assumptions C89_updates_conflict.

(* merges that only insert never conflict *)
Theorem C89_inserts_never_conflict : forall new new', conflicts_with (Update [] [] new) (Update [] [] new') = false.
Proof. exact @inserts_never_conflict. Qed.
Print Assumptions C89_inserts_never_conflict.

(* two merges of one new key are both accepted and leave the key twice *)
Theorem C89_concurrent_insert_refuted : exists files p h a b src src' m, history (h ++ [a; b]) /\
  man_at h (t_read (e_txn a)) = Some m /\ man_at h (t_read (e_txn b)) = Some m /\ latest h = Some m /\
  unique_keys (p_on p) (contents (table_of files m)) /\ unique_keys (p_on p) src /\ unique_keys (p_on p) src' /\
  visible p src /\ visible p src' /\ visible p (contents (table_of files m)) /\
  inserting_merge files p src m (t_op (e_txn a)) /\ inserting_merge files p src' m (t_op (e_txn b)) /\
  ~ unique_keys (p_on p) (contents (table_of files (e_man b))).
Proof. exact @concurrent_insert_refuted. Qed.
Print Assumptions C89_concurrent_insert_refuted.
