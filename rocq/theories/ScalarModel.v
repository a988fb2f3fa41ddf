(* Scalar indices: rust/lance-index/src/scalar/{btree,flat,bitmap,label_list}.rs.

   A ScalarValue of the indexed column is [option Z]: None is null, [Some z] a value
   of a type with a total order (integers, dates, ...; NaN is rejected in training,
   btree.rs:1056-1068).  Row ids are u64.  Arrow kernels (comparison, filter, take)
   and in_list are taken by their documented meaning: comparisons with null give
   null, filter keeps the positions that are true. *)
From Coq Require Import List Arith NArith ZArith Bool.
From Verif Require Import Lib AMap RowIdsModel SerdeModel TreeMapModel.
Import ListNotations.

Notation value := (option Z).
Notation vrow := (option Z * N)%type.
(* OrderableScalarValue, btree.rs:84-542: null first, then the order of the type *)
Definition vle (a b : value) : bool :=
  match a, b with None, _ => true | Some _, None => false | Some x, Some y => (x <=? y)%Z end.
Definition vlt (a b : value) : bool := negb (vle b a).
Definition veq (a b : value) : bool := vle a b && vle b a.
Inductive vbound := VUnb | VInc (v : value) | VExc (v : value).
(* SargableQuery (scalar.rs:180-193) without full text search *)
Inductive query := QEq (v : value) | QRange (lo hi : vbound) | QIn (l : list value) | QNull.
Definition is_none (v : value) : bool := match v with None => true | _ => false end.

(* ---- std BTreeMap<OrderableScalarValue, V> as a list in key order ---- *)
Section VMap.
Context {V : Type}.
Definition vmap := list (value * V).
Fixpoint vget (k : value) (m : vmap) : option V :=
  match m with [] => None | (k', v) :: t => if veq k k' then Some v else vget k t end.
(* entry(k).or_default() then update the value *)
Fixpoint ventry (k : value) (d : V) (f : V -> V) (m : vmap) : vmap :=
  match m with
  | [] => [(k, f d)]
  | (k', v) :: t => if veq k k' then (k', f v) :: t else if vlt k k' then (k, f d) :: m else (k', v) :: ventry k d f t
  end.
Definition above (lo : vbound) (k : value) : bool := match lo with VUnb => true | VInc v => vle v k | VExc v => vlt v k end.
Definition below (hi : vbound) (k : value) : bool := match hi with VUnb => true | VInc v => vle k v | VExc v => vlt k v end.
(* BTreeMap::range panics when start > end, or start = end and both are excluded *)
Definition range_panics (lo hi : vbound) : bool :=
  match lo, hi with
  | VInc a, VInc b | VInc a, VExc b | VExc a, VInc b => vlt b a
  | VExc a, VExc b => vle b a
  | _, _ => false
  end.
Definition vrange (lo hi : vbound) (m : vmap) : option vmap :=
  if range_panics lo hi then None else Some (filter (fun p => above lo (fst p) && below hi (fst p)) m).
End VMap.
Arguments vmap V : clear implicits.

(* ---- BTreeLookup, btree.rs:545-670 ---- *)
Record prec := { pr_max : value; pr_page : N }.
Record lookup := { lk_tree : vmap (list prec); lk_nulls : list N }.
(* 554-559 *)
Definition largest_node_less (k : value) (m : vmap (list prec)) : option value :=
  fold_left (fun acc p => if vlt (fst p) k then Some (fst p) else acc) m None.
(* Vec::dedup *)
Fixpoint dedup (l : list N) : list N :=
  match l with
  | a :: ((b :: _) as t) => if (a =? b)%N then dedup t else a :: dedup t
  | _ => l
  end.
(* 574-584 *)
Definition all_page_ids (l : lookup) : list N := dedup (map pr_page (flat_map snd (lk_tree l)) ++ lk_nulls l).
(* 612-665; None: the panic of BTreeMap::range *)
Definition lower_of (l : lookup) (lo : vbound) : vbound :=
  match lo with
  | VUnb => VUnb
  | VInc v | VExc v => match largest_node_less v (lk_tree l) with Some k => VInc k | None => VUnb end
  end.
Definition upper_of (hi : vbound) : vbound := match hi with VUnb => VUnb | VInc v | VExc v => VInc v end.
Definition pages_between (l : lookup) (lo hi : vbound) : option (list N) :=
  match vrange (lower_of l lo) (upper_of hi) (lk_tree l) with
  | None => None
  | Some cands =>
      let recs := flat_map snd cands in
      Some (map pr_page
        (match lower_of l lo with
         | VUnb => recs
         | VInc k => filter (fun r => negb (vlt (pr_max r) k)) recs
         | VExc k => filter (fun r => vlt k (pr_max r)) recs
         end))
  end.
(* 587-593 *)
Definition pages_eq (l : lookup) (v : value) : option (list N) :=
  if is_none v then Some (lk_nulls l) else pages_between l (VInc v) (VExc v).
(* 596-609: heap, into_sorted_vec, dedup *)
Definition pages_in (l : lookup) (vs : list value) : option (list N) :=
  match sequence_opt (map (pages_eq l) vs) with Some ps => Some (s_of_list (concat ps)) | None => None end.

(* ---- FlatIndex::search, flat.rs:198-292, the page search ---- *)
(* three-valued results of the kernels *)
Definition cmp3 (f : value -> value -> bool) (x y : value) : option bool :=
  match x, y with Some _, Some _ => Some (f x y) | _, _ => None end.
Definition and3 (a b : option bool) : option bool := match a, b with Some x, Some y => Some (x && y) | _, _ => None end.
Definition flat_pred (has_nulls : bool) (q : query) (v : value) : option (option bool) :=
  match q with
  | QEq None => Some (Some (is_none v))
  | QEq w => Some (cmp3 veq v w)
  | QNull => Some (Some (is_none v))
  | QIn l =>
      (* in_list never matches null; the nulls are joined in when asked for *)
      let p := existsb (fun w => match cmp3 veq v w with Some true => true | _ => false end) l in
      Some (Some (if existsb is_none l && has_nulls then p || is_none v else p))
  | QRange lo hi =>
      let lower := match lo with VUnb => Some true | VInc w => cmp3 vle w v | VExc w => cmp3 vlt w v end in
      let upper := match hi with VUnb => Some true | VInc w => cmp3 vle v w | VExc w => cmp3 vlt v w end in
      match lo, hi with
      | VUnb, VUnb => None
      | _, _ => let p := and3 lower upper in
                Some (if has_nulls then and3 (Some (negb (is_none v))) p else p)
      end
  end.
(* None: the panic on a range without bounds *)
Definition flat_search (q : query) (page : list vrow) : option tmap :=
  let has_nulls := existsb (fun r => is_none (fst r)) page in
  match sequence_opt (map (fun r => flat_pred has_nulls q (fst r)) page), q with
  | _, QRange VUnb VUnb => None
  | Some ps, _ => Some (t_from_iter (map snd (map fst (filter (fun x => match snd x with Some true => true | _ => false end) (combine page ps)))))
  | None, _ => None
  end.

(* ---- the page file: lance_format.rs:86-92, 121-124, 143-150 ---- *)
(* write_record_batch appends; a v1 reader reads the n-th batch, a v2 reader the
   rows n*batch_size .. min((n+1)*batch_size, num_rows) *)
Inductive format := V1 | V2.
Definition read_page (fmt : format) (batch_size : nat) (file : list (list vrow)) (n : N) : option (list vrow) :=
  match fmt with
  | V1 => nth_error file (N.to_nat n)
  | V2 => Some (firstn batch_size (skipn (N.to_nat n * batch_size) (concat file)))
  end.

(* ---- training, btree.rs:1083-1239 ---- *)
(* MinAccumulator / MaxAccumulator ignore nulls *)
Definition opt_min (a b : value) : value := match a, b with None, x => x | x, None => x | Some x, Some y => Some (Z.min x y) end.
Definition opt_max (a b : value) : value := match a, b with None, x => x | x, None => x | Some x, Some y => Some (Z.max x y) end.
Definition page_min (p : list vrow) : value := fold_right (fun r m => opt_min (fst r) m) None p.
Definition page_max (p : list vrow) : value := fold_right (fun r m => opt_max (fst r) m) None p.
Definition null_count (p : list vrow) : nat := length (filter (fun r => is_none (fst r)) p).
Record stat := { st_min : value; st_max : value; st_nulls : nat; st_page : N }.
Fixpoint stats_from (i : N) (batches : list (list vrow)) : list stat :=
  match batches with
  | [] => []
  | b :: t => {| st_min := page_min b; st_max := page_max b; st_nulls := null_count b; st_page := i |} :: stats_from (i + 1) t
  end.
(* 787-841 try_from_serialized *)
Definition add_stat (l : lookup) (s : stat) : lookup :=
  {| lk_tree := if is_none (st_max s) then lk_tree l
                else ventry (st_min s) [] (fun v => v ++ [{| pr_max := st_max s; pr_page := st_page s |}]) (lk_tree l);
     lk_nulls := if 0 <? st_nulls s then lk_nulls l ++ [st_page s] else lk_nulls l |}.
Definition load_lookup (stats : list stat) : lookup :=
  let l := fold_left add_stat stats {| lk_tree := []; lk_nulls := [] |} in
  match rev stats with
  | [] => l
  | s :: _ => {| lk_tree := ventry (st_max s) [] (fun v => v) (lk_tree l); lk_nulls := lk_nulls l |}
  end.
Record btree := { bt_lookup : lookup; bt_stats : list stat; bt_file : list (list vrow); bt_batch : nat; bt_fmt : format }.
(* train_btree_index followed by load *)
Definition train (fmt : format) (batch_size : nat) (batches : list (list vrow)) : btree :=
  {| bt_lookup := load_lookup (stats_from 0 batches); bt_stats := stats_from 0 batches; bt_file := batches; bt_batch := batch_size; bt_fmt := fmt |}.

(* 946-979 search; None: panic or unreadable page *)
Definition bt_pages (t : btree) (q : query) : option (list N) :=
  match q with
  | QEq v => pages_eq (bt_lookup t) v
  | QRange lo hi => pages_between (bt_lookup t) lo hi
  | QIn vs => pages_in (bt_lookup t) vs
  | QNull => Some (lk_nulls (bt_lookup t))
  end.
Definition bt_search (t : btree) (q : query) : option tmap :=
  obind (bt_pages t q) (fun pages =>
  obind (sequence_opt (map (fun n => obind (read_page (bt_fmt t) (bt_batch t) (bt_file t) n) (flat_search q)) pages)) (fun ms =>
  Some (t_extend_maps ms []))).

(* ---- remapping ---- *)
Definition mapping := N -> option (option N).
(* flat.rs:55-82: rows without an entry keep their id, rows mapped to None go *)
Definition remap_batch (m : mapping) (p : list vrow) : list vrow :=
  flat_map (fun r => match m (snd r) with
                     | None => [r]
                     | Some (Some n) => [(fst r, n)]
                     | Some None => []
                     end) p.
(* btree.rs:1000-1029: pages in the order of all_page_ids; lookup file copied; the
   new index is loaded from the copied statistics *)
Definition bt_remap (m : mapping) (t : btree) : option btree :=
  obind (sequence_opt (map (read_page (bt_fmt t) (bt_batch t) (bt_file t)) (all_page_ids (bt_lookup t)))) (fun pages =>
  Some {| bt_lookup := load_lookup (bt_stats t); bt_stats := bt_stats t; bt_file := map (remap_batch m) pages; bt_batch := bt_batch t; bt_fmt := bt_fmt t |}).

(* ---- update, btree.rs:1031-1045, 1242-1339 ---- *)
(* SortPreservingMergeExec of two streams: takes the smaller head, ties from the first *)
Fixpoint merge_fuel (fuel : nat) (a b : list vrow) : list vrow :=
  match fuel with
  | O => a ++ b
  | S k => match a, b with
           | [], _ => b
           | _, [] => a
           | x :: a', y :: b' => if vle (fst x) (fst y) then x :: merge_fuel k a' b else y :: merge_fuel k a b'
           end
  end.
Definition merge (a b : list vrow) : list vrow := merge_fuel (length a + length b) a b.
Fixpoint chunk_fuel (fuel n : nat) (l : list vrow) : list (list vrow) :=
  match fuel, l with
  | S k, _ :: _ => firstn n l :: chunk_fuel k n (skipn n l)
  | _, _ => []
  end.
(* chunk_concat_stream: chunks of n rows, the last one may be shorter *)
Definition chunk (n : nat) (l : list vrow) : list (list vrow) := chunk_fuel (length l) n l.
(* the old data is read with the default batch size (1332), whatever the index was
   trained with; the new index is trained with it *)
Definition bt_update (default : nat) (new_data : list vrow) (t : btree) : option btree :=
  obind (sequence_opt (map (read_page (bt_fmt t) default (bt_file t)) (all_page_ids (bt_lookup t)))) (fun pages =>
  Some (train (bt_fmt t) default (chunk default (merge (concat pages) new_data)))).

(* ---- BitmapIndex, bitmap.rs ---- *)
Record bitmap_index := { bi_map : vmap tmap; bi_null : tmap }.
(* the dictionary of do_train_bitmap_index (345-370): HashMap<ScalarValue, RowIdTreeMap> *)
Definition add_row (st : vmap tmap) (r : vrow) : vmap tmap := ventry (fst r) [] (fun m => fst (t_insert (snd r) m)) st.
(* write_bitmap_index then load (67-113): bitmaps survive serialization (C14); the
   null key goes to the null map *)
Definition bi_load (st : vmap tmap) : bitmap_index :=
  {| bi_map := filter (fun p => negb (is_none (fst p))) st;
     bi_null := match vget None st with Some m => m | None => [] end |}.
Definition bi_train_state (rows : list vrow) (st : vmap tmap) : vmap tmap := fold_left add_row rows st.
Definition bi_train (rows : list vrow) : bitmap_index := bi_load (bi_train_state rows []).
(* 174-232 *)
Definition bi_search (t : bitmap_index) (q : query) : option tmap :=
  match q with
  | QEq v => Some (if is_none v then bi_null t else match vget v (bi_map t) with Some m => m | None => [] end)
  | QRange lo hi => match vrange lo hi (bi_map t) with Some ms => Some (t_union_all (map snd ms)) | None => None end
  | QIn vs => Some (fold_left (fun acc v => if is_none v then t_or acc (bi_null t)
                                            else match vget v (bi_map t) with Some m => t_or acc m | None => acc end) vs [])
  | QNull => Some (bi_null t)
  end.
(* 269-286 *)
Definition bi_update (rows : list vrow) (t : bitmap_index) : bitmap_index :=
  bi_load (bi_train_state rows (ventry None [] (fun _ => bi_null t) (bi_map t))).
(* 247-266: `*mapping.get(&addr)?`: rows without entry are dropped; the null map is
   not written.  None: row_ids() on a map with a full fragment *)
Definition bi_remap (m : mapping) (t : bitmap_index) : option bitmap_index :=
  omap (fun st => bi_load st)
    (sequence_opt (map (fun p => omap (fun ids => (fst p, t_from_iter (flat_map (fun a => match m a with Some (Some n) => [n] | _ => [] end) ids)))
                                      (t_row_ids (snd p))) (bi_map t))).

(* ---- LabelListIndex, label_list.rs ---- *)
Inductive label_query := HasAll (l : list value) | HasAny (l : list value).
(* 167-190, 220-272: one (item, row id) row per list item *)
Notation lrow := (option (list value) * N)%type.
Definition unnest (rows : list lrow) : list vrow :=
  flat_map (fun r => map (fun v => (v, snd r)) (match fst r with Some l => l | None => [] end)) rows.
Definition ll_train (rows : list lrow) : bitmap_index := bi_train (unnest rows).
(* 80-138; None: the unwrap on an empty list of labels *)
Definition ll_search (t : bitmap_index) (q : label_query) : option tmap :=
  let search v := match bi_search t (QEq v) with Some m => m | None => [] end in
  match q with
  | HasAll (v :: vs) => Some (fold_left (fun acc w => t_and acc (search w)) vs (search v))
  | HasAny (v :: vs) => Some (fold_left (fun acc w => t_or acc (search w)) vs (search v))
  | HasAll [] | HasAny [] => None
  end.
