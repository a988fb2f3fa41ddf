(* A scan answered by scalar indices: scalar_indexed_scan
   (rust/lance/src/dataset/scanner.rs:1837-1960), MaterializeIndexExec and
   row_ids_for_mask (rust/lance/src/io/exec/scalar_index.rs:330-549), and the mask of
   deleted rows (rust/lance/src/index/prefilter.rs:57-223).

   Streams read with buffer_unordered are taken in order.  TakeExec (C27) is its
   contract: the row with a given row id.  Scanning fragments gives their live rows
   (C25).  [None] is an error or a panic. *)
From Coq Require Import List Arith NArith ZArith Bool.
From Verif Require Import Lib AMap RowIdsModel SerdeModel TreeMapModel DeletionModel TakeModel ScalarModel IndexExprModel.
Import ListNotations.

(* a fragment and its row id sequence (used in tables with stable row ids) *)
Record sfrag := { s_frag : frag row; s_seq : rowseq }.
Definition s_id (f : sfrag) : N := fr_id (s_frag f).
Definition s_phys (f : sfrag) : nat := length (fr_rows (s_frag f)).

(* FragIdIter 349-389 *)
Definition frag_addrs (f : sfrag) : list N := map (new_from_parts (s_id f mod two32)) (nrange 0 (s_phys f)).
Definition frag_ids (stable : bool) (f : sfrag) : list N := if stable then seq_iter (s_seq f) else frag_addrs f.

(* ---- prefilter.rs ---- *)
(* 83-119; RoaringBitmap::from(deletion vector) is the set of its items *)
Definition deletion_mask (ds : list sfrag) (missing with_del : list N) : option mask :=
  omap (fun dvs => from_block (fold_left (fun m k => t_insert_fragment k m) missing
                                (fold_left (fun m p => t_insert_bitmap (fst p) (snd p) m) dvs [])))
    (sequence_opt (map (fun k => obind (find (fun f => s_id f mod two32 =? k)%N ds) (fun f =>
       omap (fun d => (k, s_of_list (dv_items d))) (fr_dv (s_frag f)))) with_del)).
(* 122-179: the ids of all live rows; the deleted positions come in the iteration
   order of the deletion vector (deletion.rs:71-77), which for a hash set is the
   order of the model's list *)
Definition live_seq (f : sfrag) : option rowseq :=
  match fr_dv (s_frag f) with
  | Some d => seq_mask (s_seq f) (map N.to_nat (dv_items d))
  | None => Some (s_seq f)
  end.
Definition deletion_mask_row_id (ds : list sfrag) : option mask :=
  omap from_allowed
    (fold_left (fun acc f => obind acc (fun m => obind (live_seq f) (fun q => omap (t_or m) (t_of_seq q)))) ds (Some [])).
(* 190-223; inner None: nothing to mask *)
Definition create_deletion_mask (stable : bool) (ds : list sfrag) (frags : list N) : option (option mask) :=
  let present k := existsb (fun f => s_id f mod two32 =? k)%N ds in
  let has_del k := existsb (fun f => (s_id f mod two32 =? k)%N && match fr_dv (s_frag f) with Some _ => true | None => false end) ds in
  let missing := filter (fun k => negb (present k)) frags in
  let with_del := filter has_del frags in
  match missing, with_del with
  | [], [] => Some None
  | _, _ => omap Some (if stable then deletion_mask_row_id ds else deletion_mask ds missing with_del)
  end.
(* 58-80 DatasetPreFilter::new: the fragments an index search has to care about *)
Definition prefilter_fragments (max_fragment_id : N) (bitmaps : list (option (list N))) : list N :=
  if existsb (fun b => match b with None => true | _ => false end) bitmaps
  then nrange 0 (N.to_nat max_fragment_id)
  else fold_left (fun acc b => match b with Some s => s_union acc s | None => acc end) bitmaps [].

(* ---- scalar_index.rs ---- *)
(* 530-549 *)
Definition retain_fragments (stable : bool) (a : tmap) (frags : list sfrag) : option tmap :=
  if stable
  then omap (t_and a) (fold_left (fun acc f => obind acc (fun m => omap (t_or m) (t_of_seq (s_seq f)))) frags (Some []))
  else Some (t_retain (map (fun f => s_id f mod two32)%N frags) a).
(* 443-528; with stable row ids a set without enumeration fails the debug assertions
   at 476 and 518 *)
Definition row_ids_for_mask (stable : bool) (m : mask) (frags : list sfrag) : option (list N) :=
  let all := flat_map (frag_ids stable) frags in
  match allow m, block m with
  | None, None => Some all
  | Some a, None =>
      obind (retain_fragments stable a frags) (fun a' =>
      match t_row_ids a' with
      | Some l => Some l
      | None => if stable then None else Some (filter (fun x => t_contains x a') all)
      end)
  | None, Some b =>
      if stable then
        match t_len b with
        | None => None                                            (* expect("unknown block list len") *)
        | Some n => if (N.of_nat (length all) <? n)%N then None   (* capacity -= len underflows *)
                    else Some (filter (fun x => negb (t_contains x b)) all)
        end
      else Some (filter (fun x => negb (t_contains x b)) all)
  | Some a, Some b =>
      obind (retain_fragments stable a frags) (fun a' =>
      match t_row_ids a' with
      | Some l => Some (filter (fun x => negb (t_contains x b)) l)
      | None => if stable then None else Some (filter (fun x => negb (t_contains x b) && t_contains x a') all)
      end)
  end.
(* 412-439 do_execute *)
Definition materialize (stable : bool) (ds : list sfrag) (search : N -> aquery -> option tmap) (s : sidx) (frags : list sfrag) : option (list N) :=
  obind (evaluate search s) (fun m =>
  obind (create_deletion_mask stable ds (s_of_list (map (fun f => s_id f mod two32)%N frags))) (fun pm =>
  row_ids_for_mask stable (match pm with Some p => mask_and m p | None => m end) frags)).

(* ---- scanner.rs ---- *)
(* the live rows of a fragment with their row ids *)
Definition frag_live (stable : bool) (f : sfrag) : list (N * row) :=
  map fst (filter (fun p => negb (memN (snd p) (match fr_dv (s_frag f) with Some d => dv_items d | None => [] end)))
    (combine (combine (frag_ids stable f) (fr_rows (s_frag f))) (nrange 0 (s_phys f)))).
Definition live (stable : bool) (fs : list sfrag) : list (N * row) := flat_map (frag_live stable) fs.
(* TakeExec by row id *)
Definition take_ids (stable : bool) (ds : list sfrag) (ids : list N) : option (list (N * row)) :=
  sequence_opt (map (fun i => find (fun p => fst p =? i)%N (live stable ds)) ids).
(* 1837-1862: [bitmap c] is the fragment bitmap of column c's index *)
Fixpoint covered_frags (bitmap : N -> list N) (s : sidx) : list N :=
  match s with
  | SAnd a b | SOr a b => s_inter (covered_frags bitmap a) (covered_frags bitmap b)
  | SNot a => covered_frags bitmap a
  | SQuery c _ => bitmap c
  end.
(* 1866-1960 *)
Definition scalar_indexed_scan (stable : bool) (ds requested : list sfrag) (search : N -> aquery -> option tmap) (bitmap : N -> list N) (s : sidx)
  : option (list (N * row)) :=
  let cov f := memN (s_id f mod two32)%N (covered_frags bitmap s) in
  let relevant := filter cov requested in
  let missing := filter (fun f => negb (cov f)) requested in
  obind (materialize stable ds search s relevant) (fun ids =>
  obind (take_ids stable ds ids) (fun old =>
  match missing with
  | [] => Some old
  | _ => omap (fun e => old ++ filter (fun p => passes (snd p) e) (live stable missing)) (to_expr s)
  end)).
(* create_plan 1267-1299, 1366-1400, 1451: the filter, planned and run; the refine
   filter comes last *)
Definition filtered_scan (stable : bool) (ds requested : list sfrag) (f : info) (search : N -> aquery -> option tmap) (bitmap : N -> list N) (e : expr)
  : option (list (N * row)) :=
  let i := apply_scalar_indices f e in
  let refined rows := match refine_expr i with Some x => filter (fun p => passes (snd p) x) rows | None => rows end in
  match scalar_query i with
  | Some s => omap refined (scalar_indexed_scan stable ds requested search bitmap s)
  | None => Some (refined (live stable requested))
  end.
