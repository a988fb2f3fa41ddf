(* Nearest-neighbour queries: the plan (rust/lance/src/dataset/scanner.rs: nearest 642-647, create_plan
   1261-1343, knn 1670-1752, knn_combined 1755-1835, flat_knn 2066-2136, ann 2139-2158, prefilter_source
   2242-2295), the search of an IVF index (rust/lance/src/io/exec/knn.rs 399-640, rust/lance/src/index/vector/
   ivf/v2.rs 406-436, rust/lance-index/src/vector/flat/index.rs 74-133) and the prefilter
   (rust/lance/src/index/prefilter.rs 57-80, 228-262, rust/lance/src/io/exec/utils.rs 32-78).

   One query vector: [dist m r] is the distance of the vector of row [r] to it under metric [m], None if the row
   has no vector.  Distances are exact rationals (no NaN, no rounding).  An index is the deltas of one name; a delta
   is its partitions, each with the distance of its centroid to the query and its rows with the distance the index
   computes, which for a quantizer is not that of the vectors.  Partitions are searched one by one (flat sub-index,
   not HNSW).  Streams of unordered batches are taken in order, the sort decides.  Multivectors are left out.  The
   serialization of a mask (C21) is left out.  TakeExec is its contract.  [None] is an error or a panic. *)
From Coq Require Import List Arith NArith ZArith QArith Bool.
From Verif Require Import Lib AMap RowIdsModel SerdeModel TreeMapModel DeletionModel TakeModel ScalarModel IndexExprModel ScanModel.
Import ListNotations.
Local Open Scope nat_scope.

Record delta := { dl_bitmap : option (list N); dl_parts : list (Q * list (N * Q)) }.
Definition dl_entries (d : delta) : list (N * Q) := flat_map snd (dl_parts d).
(* lance-index/src/vector.rs Query, with the scanner's prefilter and fast_search *)
Record nquery {M : Type} := { nq_k : nat; nq_refine : option nat; nq_probes : nat; nq_low : option Q; nq_up : option Q; nq_metric : M; nq_use_index : bool; nq_prefilter : bool; nq_fast : bool }.
Arguments nquery : clear implicits.
(* flat_knn 2075-2108 and flat/index.rs 93-97: lower <= d < upper *)
Definition in_bounds (lo hi : option Q) (d : Q) : bool :=
  (match lo with Some a => Qle_bool a d | None => true end) && (match hi with Some b => negb (Qle_bool b d) | None => true end).

Section Plan.
  Context {M : Type} (dist : M -> row -> option Q) (sort : forall A, (A -> option Q) -> list A -> list A).

  (* the fetch of SortExec: the first rows of a sort, nulls last *)
  Definition top {A} (k : nat) (key : A -> option Q) (l : list A) : list A := firstn k (sort A key l).

  (* flat_knn 2066-2136: KNNVectorDistanceExec, the filter of the bounds (a null is not within), the sort with
     fetch k, and the filter of nulls *)
  Definition keep_some {A} (l : list (A * option Q)) : list (A * Q) := flat_map (fun p => match snd p with Some d => [(fst p, d)] | None => [] end) l.
  Definition bound_filter (lo hi : option Q) (p : (N * row) * option Q) : bool :=
    match lo, hi with None, None => true | _, _ => match snd p with Some d => in_bounds lo hi d | None => false end end.
  Definition flat_knn (m : M) (k : nat) (lo hi : option Q) (rows : list (N * row)) : list ((N * row) * Q) :=
    keep_some (top k snd (filter (bound_filter lo hi) (map (fun p => (p, dist m (snd p))) rows))).

  (* flat/index.rs 74-133: [None] is the empty prefilter *)
  Definition sub_search (msk : option mask) (k : nat) (lo hi : option Q) (entries : list (N * Q)) : list (N * Q) :=
    top k (fun p => Some (snd p))
      (filter (fun p => in_bounds lo hi (snd p))
         (filter (fun p => match msk with Some m => selected m (fst p) | None => true end) entries)).
  (* find_partitions (ivf/v2.rs 406-414, lance-index/src/vector/kmeans.rs kmeans_find_partitions): the nearest centroids *)
  Definition probed (n : nat) (parts : list (Q * list (N * Q))) : list (Q * list (N * Q)) := top n (fun p => Some (fst p)) parts.
  Definition search_delta (msk : option mask) (n k : nat) (lo hi : option Q) (d : delta) : list (N * Q) :=
    flat_map (fun p => sub_search msk k lo hi (snd p)) (probed n (dl_parts d)).
  (* DatasetPreFilter: prefilter.rs 57-80 and 243-253 *)
  Definition combined (filtered deleted : option mask) : option mask :=
    match filtered, deleted with
    | None, None => None
    | Some a, None => Some a
    | None, Some b => Some b
    | Some a, Some b => Some (mask_and a b)
    end.
  Definition delta_mask (stable : bool) (ds : list sfrag) (maxf : N) (filtered : option mask) (d : delta) : option (option mask) :=
    omap (combined filtered) (create_deletion_mask stable ds (prefilter_fragments maxf [dl_bitmap d])).
  (* ann 2139-2158 *)
  Definition kk (q : nquery M) : nat := nq_k q * match nq_refine q with Some n => n | None => 1 end.
  Definition ann (stable : bool) (ds : list sfrag) (maxf : N) (filtered : option mask) (q : nquery M) (deltas : list delta) : option (list (N * Q)) :=
    omap (fun l => top (kk q) (fun p => Some (snd p)) (concat l))
      (sequence_opt (map (fun d => omap (fun msk => search_delta msk (nq_probes q) (kk q) (nq_low q) (nq_up q) d) (delta_mask stable ds maxf filtered d)) deltas)).

  (* prefilter_source 2242-2295 with utils.rs 32-78; [requested] are the fragments of with_fragments.  Called with a
     filter only if prefilter is set. *)
  Definition prefilter_mask (stable : bool) (ds : list sfrag) (requested : option (list sfrag)) (f : info) (search : N -> aquery -> option tmap) (bitmap : N -> list N) (e : option expr)
    : option (option mask) :=
    match e with
    | None => Some None
    | Some e =>
        let scanned := omap (fun out => Some (from_allowed (t_extend (map fst out) [])))
                         (filtered_scan stable ds (match requested with Some fs => fs | None => ds end) f search bitmap e) in
        match scalar_query (apply_scalar_indices f e), refine_expr (apply_scalar_indices f e) with
        | Some s, None => match requested with Some _ => None | None => omap Some (evaluate search s) end
        | _, _ => scanned
        end
    end.
  (* unindexed_fragments, index.rs 1005-1020; None: a delta without a bitmap *)
  Definition unindexed (ds : list sfrag) (deltas : list delta) : option (list sfrag) :=
    omap (fun bs => filter (fun g => negb (existsb (memN (s_id g mod two32)%N) bs)) ds) (sequence_opt (map dl_bitmap deltas)).
  Definition passing (e : option expr) (p : N * row) : bool := match e with Some e => passes (snd p) e | None => true end.

  (* knn 1670-1752 and knn_combined 1755-1835; [ix] is the metric and the deltas of the first index of the column *)
  Definition knn (stable : bool) (ds : list sfrag) (maxf : N) (requested : option (list sfrag)) (f : info) (search : N -> aquery -> option tmap) (bitmap : N -> list N)
    (e : option expr) (q : nquery M) (ix : option (M * list delta)) : option (list ((N * row) * Q)) :=
    match (if nq_use_index q then ix else None) with
    | Some (m, deltas) =>
        if (match nq_refine q with Some 0 => true | _ => false end) then None else
        obind (prefilter_mask stable ds requested f search bitmap e) (fun filtered =>
        obind (ann stable ds maxf filtered q deltas) (fun found =>
        obind (take_ids stable ds (map fst found)) (fun rows =>
        let near := match nq_refine q with
                    | Some _ => flat_knn m (nq_k q) (nq_low q) (nq_up q) rows
                    | None => combine rows (map snd found)
                    end in
        if nq_fast q then Some near else
        omap (fun un =>
          match un with
          | [] => near
          | _ => flat_knn m (nq_k q) (nq_low q) (nq_up q)
                   (map fst (flat_knn m (nq_k q) (nq_low q) (nq_up q) (filter (passing e) (live stable un))) ++ map fst near)
          end) (unindexed ds deltas))))
    | None =>
        let fs := match requested with Some fs => fs | None => ds end in
        omap (flat_knn (nq_metric q) (nq_k q) (nq_low q) (nq_up q))
          (match e with Some e => filtered_scan stable ds fs f search bitmap e | None => Some (live stable fs) end)
    end.
  (* nearest 642-647 (with_fragments called before it) and stages 1 and 2 of create_plan 1327-1343, 1451-1459 *)
  Definition nearest_scan (stable : bool) (ds : list sfrag) (maxf : N) (requested : option (list sfrag)) (f : info) (search : N -> aquery -> option tmap) (bitmap : N -> list N)
    (e : option expr) (q : nquery M) (ix : option (M * list delta)) : option (list ((N * row) * Q)) :=
    if nq_prefilter q then knn stable ds maxf requested f search bitmap e q ix
    else match requested with
         | Some _ => None
         | None => omap (filter (fun p => passing e (fst p))) (knn stable ds maxf None f search bitmap None q ix)
         end.
End Plan.
