(* Scalar indices: B-tree, bitmap and label-list search, remapping, update (C59-C62, C70). *)
From Coq Require Import List Arith NArith ZArith Bool Permutation Sorted.
From Verif Require Import Lib AMap RowIdsModel SerdeModel TreeMapModel TreeMapProofs ScalarModel ScalarProofs BitmapIndexProofs BTreeMaintProofs.
Import ListNotations.
Local Open Scope nat_scope.

(* a search over an index trained on sorted data returns exactly the ids of the matching rows *)
Theorem C59_btree_search_exact : forall fmt bs batches q, vsorted (concat batches) -> (fmt = V2 -> full_pages bs batches) -> ids_ok (concat batches) -> query_ok q ->
  exists s, bt_search (train fmt bs batches) q = Some s /\ answers s (concat batches) q.
Proof. exact @bt_search_spec. Qed.
Print Assumptions C59_btree_search_exact.

(* every page holding a matching value is visited *)
Theorem C59_pages_complete : forall fmt bs batches q, vsorted (concat batches) -> query_ok q ->
  exists ps, bt_pages (train fmt bs batches) q = Some ps /\
    forall j b v i, nth_error batches j = Some b -> In (v, i) b -> matches q v -> In (N.of_nat j) ps.
Proof. exact @bt_pages_complete. Qed.
Print Assumptions C59_pages_complete.

(* when exactly a range query with both bounds panics *)
Theorem C59_crossed_bounds_panic : forall fmt bs batches lo hi a b, bounds_value lo = Some a -> bounds_value hi = Some b ->
  (bt_pages (train fmt bs batches) (QRange lo hi) = None <->
   exists k, ((exists p, In p batches /\ page_max p <> None /\ k = page_min p) \/ last_max (stats_from 0 batches) = Some k) /\ vlt b k = true /\ vlt k a = true).
Proof. exact @crossed_panics. Qed.
Print Assumptions C59_crossed_bounds_panic.

(* x BETWEEN 10 AND 5 over two pages panics *)
Theorem C59_crossed_refuted : exists fmt bs batches q, vsorted (concat batches) /\ full_pages bs batches /\ ids_ok (concat batches) /\ bt_search (train fmt bs batches) q = None.
Proof. exact @crossed_refuted. Qed.
Print Assumptions C59_crossed_refuted.

(* the search within a page *)
Theorem C59_flat_search_exact : forall q page, query_ok q -> ids_ok page -> exists s, flat_search q page = Some s /\ t_wf s /\ answers s page q.
Proof. exact @flat_search_spec. Qed.
Print Assumptions C59_flat_search_exact.

(* a remapped page answers with new ids, without the dropped rows, unmapped rows keep their id *)
Theorem C60_flat_remap : forall m page q, ids_ok page -> mapping_ok m -> query_ok q -> exists s, flat_search q (remap_batch m page) = Some s /\
  forall id, (id < two64)%N -> (t_contains id s = true <-> exists v i, In (v, i) page /\ matches q v /\ ((m i = None /\ id = i) \/ m i = Some (Some id))).
Proof. exact @flat_remap_spec. Qed.
Print Assumptions C60_flat_remap.

(* what a remapped bitmap index answers in general: nulls and unmapped rows are gone *)
Theorem C60_bitmap_remap_exact : forall m rows q, ids_ok rows -> mapping_ok m -> bitmap_query_ok q ->
  exists t s, bi_remap m (bi_train rows) = Some t /\ bi_search t q = Some s /\ answers s (kept_rows m rows) q.
Proof. exact @bi_remap_exact. Qed.
Print Assumptions C60_bitmap_remap_exact.

(* the claim for bitmap indices without nulls under a mapping that mentions every row *)
Theorem C60_bitmap_remap_partial : forall m rows q, ids_ok rows -> mapping_ok m -> bitmap_query_ok q ->
  (forall v i, In (v, i) rows -> v <> None /\ m i <> None) ->
  exists t s, bi_remap m (bi_train rows) = Some t /\ bi_search t q = Some s /\ answers s (remap_batch m rows) q.
Proof. exact @bi_remap_total. Qed.
Print Assumptions C60_bitmap_remap_partial.

(* rows outside the mapping are lost *)
Theorem C60_bitmap_unmapped_refuted : ~ remap_claim (fun m rows q => obind (bi_remap m (bi_train rows)) (fun t => bi_search t q)).
Proof. exact @bi_remap_unmapped_refuted. Qed.
Print Assumptions C60_bitmap_unmapped_refuted.

(* null rows are lost *)
Theorem C60_bitmap_nulls_refuted : exists m rows, ids_ok rows /\ mapping_ok m /\ (forall v i, In (v, i) rows -> m i <> None) /\
  exists s, obind (bi_remap m (bi_train rows)) (fun t => bi_search t QNull) = Some s /\ ~ answers s (remap_batch m rows) QNull.
Proof. exact @bi_remap_nulls_refuted. Qed.
Print Assumptions C60_bitmap_nulls_refuted.

(* the claim for B-tree indices without nulls whose pages keep their place in the file *)
Theorem C60_btree_remap_partial : forall fmt bs batches m q,
  vsorted (concat batches) -> null_free (concat batches) -> no_empty batches -> ids_ok (concat batches) ->
  (fmt = V2 -> full_pages bs batches /\ full_pages bs (map (remap_batch m) batches)) -> mapping_ok m -> query_ok q ->
  exists t s, bt_remap m (train fmt bs batches) = Some t /\ bt_search t q = Some s /\ answers s (remap_batch m (concat batches)) q.
Proof. exact @bt_remap_spec. Qed.
Print Assumptions C60_btree_remap_partial.

(* for v2 files: no row of a page other than the last is dropped *)
Theorem C60_btree_remap_v2_partial : forall bs batches m q,
  vsorted (concat batches) -> null_free (concat batches) -> no_empty batches -> ids_ok (concat batches) -> full_pages bs batches ->
  (forall b r, In b (removelast batches) -> In r b -> m (snd r) <> Some None) -> mapping_ok m -> query_ok q ->
  exists t s, bt_remap m (train V2 bs batches) = Some t /\ bt_search t q = Some s /\ answers s (remap_batch m (concat batches)) q.
Proof. exact @bt_remap_v2. Qed.
Print Assumptions C60_btree_remap_v2_partial.

(* the same with nulls, all in a first page that also holds a value *)
Theorem C60_btree_remap_mixed_partial : forall fmt bs b0 rest m q x i,
  let batches := b0 :: rest in
  vsorted (concat batches) -> In (Some x, i) b0 -> null_free (concat rest) -> no_empty rest -> ids_ok (concat batches) ->
  (fmt = V2 -> full_pages bs batches /\ full_pages bs (map (remap_batch m) batches)) -> mapping_ok m -> query_ok q ->
  exists t s, bt_remap m (train fmt bs batches) = Some t /\ bt_search t q = Some s /\ answers s (remap_batch m (concat batches)) q.
Proof. exact @bt_remap_mixed. Qed.
Print Assumptions C60_btree_remap_mixed_partial.

(* a page that shrinks moves the pages behind it *)
Theorem C60_btree_shrink_refuted : exists bs batches m, vsorted (concat batches) /\ null_free (concat batches) /\ no_empty batches /\ full_pages bs batches /\ ids_ok (concat batches) /\ mapping_ok m /\
  exists s, obind (bt_remap m (train V2 bs batches)) (fun t => bt_search t (QEq (Some 4%Z))) = Some s /\ ~ answers s (remap_batch m (concat batches)) (QEq (Some 4%Z)).
Proof. exact @bt_remap_shrink_refuted. Qed.
Print Assumptions C60_btree_shrink_refuted.

(* an all-null first page is written last but read first *)
Theorem C60_btree_nulls_refuted : exists fmt bs batches m, vsorted (concat batches) /\ no_empty batches /\ full_pages bs batches /\ ids_ok (concat batches) /\ mapping_ok m /\ (forall i, m i = None) /\
  exists s, obind (bt_remap m (train fmt bs batches)) (fun t => bt_search t (QEq (Some 3%Z))) = Some s /\ ~ answers s (remap_batch m (concat batches)) (QEq (Some 3%Z)).
Proof. exact @bt_remap_nulls_refuted. Qed.
Print Assumptions C60_btree_nulls_refuted.

(* the search returns exactly the ids of the matching rows *)
Theorem C61_bitmap_search_exact : forall rows q, ids_ok rows -> bitmap_query_ok q -> exists s, bi_search (bi_train rows) q = Some s /\ answers s rows q.
Proof. exact @bi_search_spec. Qed.
Print Assumptions C61_bitmap_search_exact.

(* updating is training on all the data *)
Theorem C61_update_is_train : forall old new, bi_update new (bi_train old) = bi_train (old ++ new).
Proof. exact @bi_update_spec. Qed.
Print Assumptions C61_update_is_train.

(* crossed bounds always panic *)
Theorem C61_crossed_bounds_panic : forall t lo hi, bi_search t (QRange lo hi) = None <-> range_panics lo hi = true.
Proof. exact @bi_crossed_panics. Qed.
Print Assumptions C61_crossed_bounds_panic.

(* x >= 5 AND x <= 3 panics *)
Theorem C61_crossed_refuted : exists rows q, ids_ok rows /\ bi_search (bi_train rows) q = None.
Proof. exact @bi_crossed_refuted. Qed.
Print Assumptions C61_crossed_refuted.

(* has-all and has-any over non-empty label lists *)
Theorem C62_label_search_exact : forall rows q, Forall (fun r : lrow => (snd r < two64)%N) rows -> NoDup (map snd rows) -> labels q <> [] ->
  exists s, ll_search (ll_train rows) q = Some s /\
    forall id, (id < two64)%N -> (t_contains id s = true <-> exists l, In (Some l, id) rows /\ list_matches q l).
Proof. exact @ll_search_spec. Qed.
Print Assumptions C62_label_search_exact.

(* an empty label list always panics *)
Theorem C62_empty_labels_refuted : forall rows q, labels q = [] -> ll_search (ll_train rows) q = None.
Proof. exact @ll_empty_refuted. Qed.
Print Assumptions C62_empty_labels_refuted.

(* after an update of an index without nulls a search answers for old and new rows *)
Theorem C70_update_partial : forall fmt n batches new q, 0 < n ->
  vsorted (concat batches) -> null_free (concat batches) -> no_empty batches -> (fmt = V2 -> full_pages n batches) -> vsorted new ->
  ids_ok (concat batches) -> ids_ok new -> query_ok q ->
  exists t s, bt_update n new (train fmt n batches) = Some t /\ bt_search t q = Some s /\ answers s (concat batches ++ new) q.
Proof. exact @bt_update_spec. Qed.
Print Assumptions C70_update_partial.

(* with a null beside values in the first page a new row is not found *)
Theorem C70_nulls_refuted : exists fmt n batches new q, 0 < n /\ vsorted (concat batches) /\ no_empty batches /\ full_pages n batches /\ vsorted new /\ ids_ok (concat batches) /\ ids_ok new /\ query_ok q /\
  exists s, obind (bt_update n new (train fmt n batches)) (fun t => bt_search t q) = Some s /\ ~ answers s (concat batches ++ new) q.
Proof. exact @bt_update_nulls_refuted. Qed.
Print Assumptions C70_nulls_refuted.
