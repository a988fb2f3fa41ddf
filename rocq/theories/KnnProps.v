(* Nearest-neighbour queries (C113, C114). *)
From Coq Require Import List Arith NArith ZArith QArith Bool Permutation Sorted.
From Verif Require Import Lib AMap RowIdsModel SerdeModel TreeMapModel DeletionModel TakeModel ScalarModel IndexExprModel IndexExprProofs ScanModel ScanProofs ScanIndexProofs ScanExamples ScanCover KnnModel KnnProofs KnnPlan KnnResults KnnExamples.
Import ListNotations.
Local Open Scope nat_scope.

(* without an index: the k nearest, within the bounds, of the rows that pass the filter *)
Theorem C113_flat_query_exact : forall (M : Type) (dist : M -> row -> option Q) (sort : forall A, (A -> option Q) -> list A -> list A), sorts_keys sort ->
  forall stable ds maxf requested f search bitmap e q ix,
  sds_ok stable ds -> incl (match requested with Some fs => fs | None => ds end) ds -> NoDup (map s_id (match requested with Some fs => fs | None => ds end)) ->
  nq_use_index q = false \/ ix = None ->
  (forall e', e = Some e' -> scan_ok stable (match requested with Some fs => fs | None => ds end) f search bitmap e') ->
  exists res, knn dist sort stable ds maxf requested f search bitmap e q ix = Some res /\
    nearest snd (nq_k q) (near dist (nq_metric q) (nq_low q) (nq_up q) (filter (passing e) (live stable (match requested with Some fs => fs | None => ds end)))) res.
Proof. intros M. exact (@flat_query_exact M). Qed.
Print Assumptions C113_flat_query_exact.

(* any index: what it finds are live rows of its fragments that pass the filter, each once; refined or joined with rows
   outside the index, the answer is the nearest of these *)
Theorem C114_indexed_query_sound_partial : forall (M : Type) (dist : M -> row -> option Q) (sort : forall A, (A -> option Q) -> list A -> list A), sorts_keys sort ->
  forall stable ds maxf f search bitmap e q m deltas bs,
  sds_ok stable ds -> Forall2 (delta_ok stable ds) deltas bs -> disjoint_bitmaps bs -> filter_ok stable ds f search bitmap bs e ->
  nq_use_index q = true -> nq_refine q <> Some 0 ->
  exists found A res, found_rows stable ds e q deltas bs found A /\
    knn dist sort stable ds maxf None f search bitmap e q (Some (m, deltas)) = Some res /\
    if negb (refined q) && (nq_fast q || forallb (indexed bs) ds)
    then res = combine A (map snd found)
    else nearest snd (nq_k q) (near dist m (nq_low q) (nq_up q) (A ++ (if nq_fast q then [] else filter (passing e) (live stable (filter (fun g => negb (indexed bs g)) ds))))) res.
Proof. intros M. exact (@indexed_query_sound M). Qed.
Print Assumptions C114_indexed_query_sound_partial.

(* exact distances and all partitions probed: the k nearest of all rows that pass the filter *)
Theorem C114_indexed_query_exact_partial : forall (M : Type) (dist : M -> row -> option Q) (sort : forall A, (A -> option Q) -> list A -> list A), sorts_keys sort ->
  forall stable ds maxf f search bitmap e q m deltas bs,
  sds_ok stable ds -> exact_index dist stable ds m (nq_probes q) deltas bs -> filter_ok stable ds f search bitmap bs e ->
  nq_use_index q = true -> nq_refine q <> Some 0 ->
  exists res, knn dist sort stable ds maxf None f search bitmap e q (Some (m, deltas)) = Some res /\
    nearest snd (nq_k q) (near dist m (nq_low q) (nq_up q) (filter (passing e) (live stable (if nq_fast q then filter (indexed bs) ds else ds)))) res.
Proof. intros M. exact (@indexed_query_exact M). Qed.
Print Assumptions C114_indexed_query_exact_partial.

Theorem C114_postfiltered_query_exact : forall (M : Type) (dist : M -> row -> option Q) (sort : forall A, (A -> option Q) -> list A -> list A), sorts_keys sort ->
  forall stable ds maxf f search bitmap e q m deltas bs,
  sds_ok stable ds -> exact_index dist stable ds m (nq_probes q) deltas bs -> nq_prefilter q = false -> nq_use_index q = true -> nq_refine q <> Some 0 ->
  exists all, nearest snd (nq_k q) (near dist m (nq_low q) (nq_up q) (live stable (if nq_fast q then filter (indexed bs) ds else ds))) all /\
    nearest_scan dist sort stable ds maxf None f search bitmap e q (Some (m, deltas)) = Some (filter (fun p => passing e (fst p)) all).
Proof. intros M. exact (@postfiltered_query_exact M). Qed.
Print Assumptions C114_postfiltered_query_exact.

(* an index stays exact when rows are deleted and fragments dropped or added after it was built *)
Theorem C114_index_of_earlier_version : forall (M : Type) (dist : M -> row -> option Q) stable ds m probes deltas fss, sds_ok stable ds ->
  Forall (fun fs0 => sds_ok stable fs0 /\ evolved stable fs0 ds) fss ->
  Forall2 (built dist stable m) fss deltas -> disjoint_bitmaps (map (map s_id) fss) -> (forall d, In d deltas -> length (dl_parts d) <= probes) ->
  exact_index dist stable ds m probes deltas (map (map s_id) fss).
Proof. intros M. exact (@built_exact M). Qed.
Print Assumptions C114_index_of_earlier_version.

(* the scalar index is behind the vector index: a scan with the filter is exact, the search misses rows *)
Theorem C114_scalar_index_behind_misses_refuted : exists (ds : list sfrag) f search bitmap e q deltas bs res,
  sds_ok false ds /\ exact_index dist0 false ds true (nq_probes q) deltas bs /\ scan_ok false ds f search bitmap e /\ nq_refine q = None /\ nq_prefilter q = true /\
  nearest_scan dist0 sort0 false ds 3 None f search bitmap (Some e) q (Some (true, deltas)) = Some res /\
  ~ nearest snd (nq_k q) (near dist0 true (nq_low q) (nq_up q) (filter (passing (Some e)) (live false ds))) res.
Proof. exact scalar_index_behind_misses_refuted. Qed.
Print Assumptions C114_scalar_index_behind_misses_refuted.

(* and with a negation it returns rows that do not pass *)
Theorem C114_scalar_index_behind_wrong_refuted : exists (ds : list sfrag) f search bitmap e q deltas bs res p,
  sds_ok false ds /\ exact_index dist0 false ds true (nq_probes q) deltas bs /\ scan_ok false ds f search bitmap e /\ nq_refine q = None /\ nq_prefilter q = true /\
  nearest_scan dist0 sort0 false ds 3 None f search bitmap (Some e) q (Some (true, deltas)) = Some res /\ In p res /\ passing (Some e) (fst p) = false.
Proof. exact scalar_index_behind_wrong_refuted. Qed.
Print Assumptions C114_scalar_index_behind_wrong_refuted.

(* a search restricted to fragments returns rows of others *)
Theorem C114_fragment_search_refuted : exists (ds requested : list sfrag) q deltas bs res p,
  sds_ok false ds /\ incl requested ds /\ exact_index dist0 false ds true (nq_probes q) deltas bs /\ nq_refine q = None /\ nq_prefilter q = true /\
  nearest_scan dist0 sort0 false ds 3 (Some requested) info0 (fun _ _ => None) (fun _ => []) None q (Some (true, deltas)) = Some res /\ In p res /\ ~ In (fst p) (live false requested).
Proof. exact fragment_search_refuted. Qed.
Print Assumptions C114_fragment_search_refuted.

(* the metric asked for is not the one used *)
Theorem C114_query_metric_refuted : exists (ds : list sfrag) q deltas bs res,
  sds_ok false ds /\ exact_index dist0 false ds true (nq_probes q) deltas bs /\ nq_refine q = Some 2 /\ nq_prefilter q = true /\ nq_metric q = false /\
  nearest_scan dist0 sort0 false ds 3 None info0 (fun _ _ => None) (fun _ => []) None q (Some (true, deltas)) = Some res /\
  ~ nearest snd (nq_k q) (near dist0 (nq_metric q) (nq_low q) (nq_up q) (live false ds)) res.
Proof. exact query_metric_refuted. Qed.
Print Assumptions C114_query_metric_refuted.

(* a fragment of the index is gone and the filter is a negation: the query fails *)
Theorem C114_gone_fragment_refuted : exists (ds : list sfrag) f search bitmap e s q deltas bs,
  sds_ok false ds /\ exact_index dist0 false ds true (nq_probes q) deltas bs /\ nq_refine q = None /\ nq_prefilter q = true /\
  scalar_query (apply_scalar_indices f e) = Some s /\ refine_expr (apply_scalar_indices f e) = None /\
  (forall id r, In (id, r) (live false ds) -> typed f r /\ nullsafe r e) /\ shape_of s <> None /\ leaves_ok search (live false (filter (indexed bs) ds)) s /\
  filter (passing (Some e)) (live false ds) <> [] /\
  nearest_scan dist0 sort0 false ds 3 None f search bitmap (Some e) q (Some (true, deltas)) = None.
Proof. exact gone_fragment_refuted. Qed.
Print Assumptions C114_gone_fragment_refuted.
