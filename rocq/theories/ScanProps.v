(* Filters answered by scalar indices, the prefilter, row ids for a mask (C18, C72, C73). *)
From Coq Require Import List Arith NArith ZArith Bool Permutation Sorted.
From Verif Require Import Lib AMap RowIdsModel RowIdsSpec SerdeModel TreeMapModel TreeMapProofs MaskProofs SeqSetProofs DeletionModel TakeModel ScalarModel ScalarProofs BitmapIndexProofs IndexExprModel IndexExprProofs ScanModel ScanProofs ScanIndexProofs ScanExamples ScanCover.
Import ListNotations.
Local Open Scope nat_scope.

(* the mask of an index expression selects the rows on which it holds *)
Theorem C18_evaluate : forall search rows s sh, shape_of s = Some sh -> leaves_ok search rows s ->
  exists m, evaluate search s = Some m /\ has_shape sh m /\ mask_good m /\
    forall id r, In (id, r) rows -> (selected m id = true <-> sat r s).
Proof. exact @evaluate_spec. Qed.
Print Assumptions C18_evaluate.

(* splitting a filter into an index part and a refinement keeps its meaning *)
Theorem C18_visit_sound : forall f r e i, typed f r -> nullsafe r e -> visit f e = Some i -> (iholds r i <-> holds r e).
Proof. exact @visit_sound. Qed.
Print Assumptions C18_visit_sound.

(* the index part turned back into a filter for uncovered fragments keeps its meaning *)
Theorem C18_to_expr : forall f r e i s t, typed f r -> nullsafe r e -> boolsafe r e -> visit f e = Some i -> scalar_query i = Some s -> to_expr s = Some t -> (holds r t <-> sat r s).
Proof. exact @to_expr_sound. Qed.
Print Assumptions C18_to_expr.

(* given leaf searches exact on the fragments every consulted index covers, the indexed scan
   returns exactly the passing rows *)
Theorem C18_indexed_scan_exact : forall stable ds requested f search bitmap e,
  sds_ok stable ds -> incl requested ds -> NoDup (map s_id requested) ->
  (forall id r, In (id, r) (live stable requested) -> typed f r /\ nullsafe r e) ->
  (forall s, scalar_query (apply_scalar_indices f e) = Some s ->
     let rel := filter (all_cover bitmap s) requested in
     shape_of s <> None /\ leaves_ok search (live stable rel) s /\ leaves_within stable search s rel /\
     forall g, In g requested -> all_cover bitmap s g = false -> to_expr s <> None /\ forall id r, In (id, r) (frag_live stable g) -> boolsafe r e) ->
  exists out, filtered_scan stable ds requested f search bitmap e = Some out /\
    Permutation out (filter (fun p => passes (snd p) e) (live stable requested)).
Proof. exact @covered_scan_spec. Qed.
Print Assumptions C18_indexed_scan_exact.

(* end to end with trained B-tree, bitmap and label-list indices, each covering its own fragments *)
Theorem C18_trained_scan_exact : forall stable ds requested trained f ixs bitmap e,
  sds_ok stable ds -> incl requested ds -> NoDup (map s_id requested) ->
  (forall id r, In (id, r) (live stable requested) -> typed f r /\ nullsafe r e) ->
  (forall c, NoDup (map fst (trained c)) /\ Forall (fun p : N * row => (fst p < two64)%N) (trained c)) ->
  (forall c ix, ixs c = Some ix -> trained_on (trained c) c ix) ->
  (forall c ix, ixs c = Some ix -> incl (live stable (filter (one_covers bitmap c) requested)) (trained c)) ->
  (forall s, scalar_query (apply_scalar_indices f e) = Some s ->
     let rel := filter (all_cover bitmap s) requested in
     shape_of s <> None /\ queries_ok ixs s /\
     (if stable
      then shape_of s = Some ShB -> (forall g, In g rel -> fr_dv (s_frag g) = None) ->
           forall c id r, In c (columns s) -> In (id, r) (trained c) -> In id (flat_map (frag_ids true) rel)
      else forall c id r, In c (columns s) -> In (id, r) (trained c) -> In (fragment_id id) (map s_id rel) -> In id (flat_map (frag_ids false) rel)) /\
     forall g, In g requested -> all_cover bitmap s g = false -> to_expr s <> None /\ forall id r, In (id, r) (frag_live stable g) -> boolsafe r e) ->
  exists out, filtered_scan stable ds requested f (index_search ixs) bitmap e = Some out /\
    Permutation out (filter (fun p => passes (snd p) e) (live stable requested)).
Proof. exact @own_bitmaps_scan. Qed.
Print Assumptions C18_trained_scan_exact.

Theorem C18_or_of_negation_refuted : exists ds trained f ixs bitmap e, table_ok false ds ds trained f ixs /\
  (forall id r, In (id, r) (live false ds) -> nullsafe r e) /\ incl (live false ds) trained /\ (forall c g, In g ds -> In (s_id g) (bitmap c)) /\ ~ scan_exact false ds ds f ixs bitmap e.
Proof. exact @or_of_negation_refuted. Qed.
Print Assumptions C18_or_of_negation_refuted.

Theorem C18_not_of_mixed_refuted : exists ds trained f ixs bitmap e, table_ok false ds ds trained f ixs /\
  (forall id r, In (id, r) (live false ds) -> nullsafe r e) /\ incl (live false ds) trained /\ (forall c g, In g ds -> In (s_id g) (bitmap c)) /\ ~ scan_exact false ds ds f ixs bitmap e.
Proof. exact @not_of_mixed_refuted. Qed.
Print Assumptions C18_not_of_mixed_refuted.

Theorem C18_not_equal_null_refuted : exists ds trained f ixs bitmap e s, table_ok false ds ds trained f ixs /\ incl (live false ds) trained /\ (forall c g, In g ds -> In (s_id g) (bitmap c)) /\
  scalar_query (apply_scalar_indices f e) = Some s /\ shape_of s <> None /\ ~ scan_exact false ds ds f ixs bitmap e.
Proof. exact @not_equal_null_refuted. Qed.
Print Assumptions C18_not_equal_null_refuted.

Theorem C18_equal_null_refuted : exists ds trained f ixs bitmap e s, table_ok false ds ds trained f ixs /\ incl (live false ds) trained /\ (forall c g, In g ds -> In (s_id g) (bitmap c)) /\
  scalar_query (apply_scalar_indices f e) = Some s /\ shape_of s <> None /\ ~ scan_exact false ds ds f ixs bitmap e.
Proof. exact @equal_null_refuted. Qed.
Print Assumptions C18_equal_null_refuted.

Theorem C18_not_in_null_refuted : exists ds trained f ixs bitmap e s, table_ok false ds ds trained f ixs /\ incl (live false ds) trained /\ (forall c g, In g ds -> In (s_id g) (bitmap c)) /\
  scalar_query (apply_scalar_indices f e) = Some s /\ shape_of s <> None /\ (forall id r, In (id, r) (live false ds) -> r_col r 0 <> None) /\ ~ scan_exact false ds ds f ixs bitmap e.
Proof. exact @not_in_null_refuted. Qed.
Print Assumptions C18_not_in_null_refuted.

Theorem C18_is_true_uncovered_refuted : exists ds trained f ixs bitmap e, table_ok false ds ds trained f ixs /\
  (forall id r, In (id, r) (live false ds) -> nullsafe r e) /\
  (exists s, scalar_query (apply_scalar_indices f e) = Some s /\ shape_of s <> None /\ to_expr s <> None) /\
  map fst (filter (fun p => passes (snd p) e) (live false ds)) = [0; 4294967296]%N /\
  omap (map fst) (filtered_scan false ds ds f (index_search ixs) bitmap e) = Some [0]%N.
Proof. exact @is_true_uncovered_refuted. Qed.
Print Assumptions C18_is_true_uncovered_refuted.

(* row addresses: exactly the deleted rows and the rows of missing fragments are blocked *)
Theorem C72_deletion_mask_addresses : forall ds frags, sds_ok false ds -> Forall (fun k => (k < two32)%N) frags ->
  exists pm, create_deletion_mask false ds frags = Some pm /\ masks_addresses ds frags pm.
Proof. exact @deletion_mask_addresses. Qed.
Print Assumptions C72_deletion_mask_addresses.

(* stable row ids: exactly the ids of live rows are allowed *)
Theorem C72_deletion_mask_row_ids : forall ds frags, sds_ok true ds ->
  exists pm, create_deletion_mask true ds frags = Some pm /\ masks_row_ids ds frags pm.
Proof. exact @deletion_mask_row_ids. Qed.
Print Assumptions C72_deletion_mask_row_ids.

Theorem C72_known_bitmaps : forall max bitmaps k, ~ In None bitmaps -> (In k (prefilter_fragments max bitmaps) <-> exists b, In (Some b) bitmaps /\ In k b).
Proof. exact @known_bitmaps. Qed.
Print Assumptions C72_known_bitmaps.

(* an index without a fragment bitmap: every fragment but the newest is considered *)
Theorem C72_unknown_bitmap_partial : forall max bitmaps k, In None bitmaps -> (In k (prefilter_fragments max bitmaps) <-> (k < max)%N).
Proof. exact @unknown_bitmap_partial. Qed.
Print Assumptions C72_unknown_bitmap_partial.

Theorem C72_unknown_bitmap_refuted : exists ds max frags pm id,
  sds_ok false ds /\ (forall f, In f ds -> (s_id f <= max)%N) /\ frags = prefilter_fragments max [None] /\
  create_deletion_mask false ds frags = Some pm /\ (match pm with Some p => selected p id | None => true end) = true /\
  (exists f k r, In f ds /\ row_at false f k id r /\ In (N.of_nat k) (deleted f)).
Proof. exact @unknown_bitmap_refuted. Qed.
Print Assumptions C72_unknown_bitmap_refuted.

Theorem C72_unsorted_deletions_refuted : exists ds p id, 
  (forall f, In f ds -> set_ok (s_seq f) /\ length (seq_iter (s_seq f)) = s_phys f /\ NoDup (deleted f) /\ Forall (fun k => (k < N.of_nat (s_phys f))%N) (deleted f)) /\
  NoDup (flat_map (frag_ids true) ds) /\ create_deletion_mask true ds [0%N] = Some (Some p) /\ selected p id = true /\ ~ (exists r, In (id, r) (live true ds)).
Proof. exact @unsorted_deletions_refuted. Qed.
Print Assumptions C72_unsorted_deletions_refuted.

Theorem C73_row_ids_for_mask : forall stable m frags, sds_ok stable frags -> mask_good m -> ids_within stable m frags ->
  exists l, row_ids_for_mask stable m frags = Some l /\ NoDup l /\
    forall id, In id l <-> In id (flat_map (frag_ids stable) frags) /\ selected m id = true.
Proof. exact @row_ids_for_mask_spec. Qed.
Print Assumptions C73_row_ids_for_mask.

Theorem C73_materialized_ids : forall stable ds search s sh rel, sds_ok stable ds -> incl rel ds -> NoDup (map s_id rel) ->
  shape_of s = Some sh -> leaves_ok search (live stable rel) s -> leaves_within stable search s rel ->
  exists ids, materialize stable ds search s rel = Some ids /\ NoDup ids /\
    forall id, In id ids <-> exists r, In (id, r) (live stable rel) /\ sat r s.
Proof. exact @materialize_spec. Qed.
Print Assumptions C73_materialized_ids.

Theorem C73_block_list_capacity_refuted : exists ds requested trained f ixs bitmap e, table_ok true ds requested trained f ixs /\
  (forall id r, In (id, r) (live true ds) -> nullsafe r e) /\ incl (live true ds) trained /\ (forall c g, In g ds -> In (s_id g) (bitmap c)) /\
  (exists s, scalar_query (apply_scalar_indices f e) = Some s /\ shape_of s <> None) /\
  filtered_scan true ds requested f (index_search ixs) bitmap e = None /\
  map fst (filter (fun p => passes (snd p) e) (live true requested)) = [0]%N.
Proof. exact @block_list_capacity_refuted. Qed.
Print Assumptions C73_block_list_capacity_refuted.
