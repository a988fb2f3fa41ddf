(* Deletion vectors (rust/lance-core/src/utils/deletion.rs), deletion files
   (rust/lance-table/src/io/deletion.rs), and the fragment operations that use
   them (rust/lance/src/dataset/fragment.rs, updater.rs).
   u32 offsets are N.  A HashSet is a duplicate-free list in arbitrary order, a
   RoaringBitmap a strictly increasing list. *)
From Coq Require Import List Arith NArith Bool Lia.
From Verif Require Import Lib AMap RowIdsModel SerdeModel.
Import ListNotations.
Local Open Scope N_scope.

(* deletion.rs:16-20 *)
Inductive dv := NoDel | DSet (s : list N) | DBitmap (b : list N).

(* deletion.rs:11 *)
Definition threshold : nat := Nat.mul 50 100.

(* HashSet::len / RoaringBitmap::len, deletion.rs:35-41 *)
Definition dv_items (d : dv) : list N :=
  match d with NoDel => [] | DSet s => s | DBitmap b => b end.
Definition dv_len (d : dv) : nat := length (dv_items d).
(* deletion.rs:47-53 *)
Definition dv_contains (d : dv) (i : N) : bool :=
  match d with NoDel => false | DSet s => memN i s | DBitmap b => memN i b end.

(* a Rust range a..b *)
Definition nrng (a b : N) : list N := nrange a (N.to_nat (b - a)).

(* deletion.rs:55-61; the bitmap case is roaring's contains_range *)
Definition dv_contains_range (d : dv) (a b : N) : bool :=
  match d with
  | NoDel => b <=? a
  | DSet s => forallb (fun i => memN i s) (nrng a b)
  | DBitmap bm => forallb (fun i => memN i bm) (nrng a b)
  end.

(* deletion.rs:63-69; the bitmap case is roaring's range_cardinality *)
Definition dv_range_card (d : dv) (a b : N) : N :=
  match d with
  | NoDel => 0
  | DSet s => fold_left (fun acc i => acc + (if memN i s then 1 else 0)) (nrng a b) 0
  | DBitmap bm => N.of_nat (length (filter (fun x => (a <=? x) && (x <? b)) bm))
  end.

(* slice::sort *)
Fixpoint ins_sorted (x : N) (l : list N) : list N :=
  match l with [] => [x] | y :: t => if x <=? y then x :: l else y :: ins_sorted x t end.
Definition sort_list (l : list N) : list N := fold_right ins_sorted [] l.

(* deletion.rs:79-104 (into_sorted_iter, to_sorted_iter) and 263-280 (into_iter) *)
Definition dv_sorted_iter (d : dv) : list N :=
  match d with NoDel => [] | DSet s => sort_list s | DBitmap b => b end.

(* deletion.rs:108-123; `id as u32` *)
Definition dv_build_predicate (d : dv) (row_ids : list N) : option (list bool) :=
  match d with
  | DBitmap b => Some (map (fun id => negb (memN (id mod two32) b)) row_ids)
  | DSet s => Some (map (fun id => negb (memN (id mod two32) s)) row_ids)
  | NoDel => None
  end.

(* HashSet::insert of each item *)
Definition hs_insert (s : list N) (x : N) : list N := if memN x s then s else s ++ [x].
Definition hs_extend (s l : list N) : list N := fold_left hs_insert l s.

(* deletion.rs:215-256; the iterator is its items together with its size_hint *)
Definition dv_extend (d : dv) (items : list N) (lower : nat) (upper : option nat) : dv :=
  match d with
  | NoDel =>
      if match upper with Some 0%nat => true | _ => false end then NoDel
      else if (threshold <=? lower)%nat then DBitmap (s_of_list items)
      else if match upper with Some u => (u <? threshold)%nat | None => false end
           then DSet (hs_extend [] items)
      else let s := hs_extend [] items in
           if (threshold <? length s)%nat then DBitmap (s_of_list s) else DSet s
  | DSet s => let s' := hs_extend s items in
              if (threshold <? length s')%nat then DBitmap (s_of_list s') else DSet s'
  | DBitmap b => DBitmap (s_union items b)
  end.
(* deletion.rs:282-288 *)
Definition dv_from_iter (items : list N) (lower : nat) (upper : option nat) : dv :=
  dv_extend NoDel items lower upper.

(* deletion.rs:200-213; HashSet equality is set equality *)
Definition same_set (a b : list N) : bool :=
  forallb (fun x => memN x b) a && forallb (fun x => memN x a) b.
Definition dv_eqb (a b : dv) : bool :=
  match a, b with
  | NoDel, NoDel => true
  | DSet x, DSet y => same_set x y
  | DBitmap x, DBitmap y => same_set x y
  | DSet x, DBitmap y | DBitmap y, DSet x => same_set (s_of_list x) y
  | _, _ => false
  end.

(* ---- OffsetMapper, deletion.rs:140-182 ----
   u32 additions and subtractions that overflow, and the failed assertion, are
   OmPanic (as in a build with overflow checks). *)
Record mapper := { om_left : N; om_diff : N }.
Definition om_new : mapper := {| om_left := 0; om_diff := 0 |}.
Inductive om_res := OmOk (v : N) (m : mapper) | OmPanic | OmFuel.

Fixpoint om_loop (fuel : nat) (d : dv) (offset left mid right : N) : om_res :=
  match fuel with
  | O => OmFuel
  | S fuel' =>
      if two32 <=? mid + 1 then OmPanic else
      let deleted := dv_range_card d 0 (mid + 1) in
      if two32 <=? offset + deleted then OmPanic else
      match mid ?= offset + deleted with
      | Lt => if left =? mid + 1 then OmPanic
              else let left' := mid + 1 in
                   if right <? left' then OmPanic
                   else om_loop fuel' d offset left' (left' + (right - left') / 2) right
      | Eq => if negb (dv_contains d mid)
              then OmOk mid {| om_left := left; om_diff := mid - offset |}
              else if mid <? left then OmPanic
              else om_loop fuel' d offset left (left + (mid - left) / 2) mid
      | Gt => if mid <? left then OmPanic
              else om_loop fuel' d offset left (left + (mid - left) / 2) mid
      end
  end.

Definition map_offset (d : dv) (m : mapper) (offset : N) : om_res :=
  let mid := offset + om_diff m in
  let right := offset + N.of_nat (dv_len d) in
  if (two32 <=? mid) || (two32 <=? right) then OmPanic
  else om_loop (N.to_nat (2 * (right - om_left m) + 2)) d offset (om_left m) mid right.

Fixpoint map_offsets (d : dv) (m : mapper) (offsets : list N) : option (list N) :=
  match offsets with
  | [] => Some []
  | o :: t => match map_offset d m o with
              | OmOk v m' => omap (cons v) (map_offsets d m' t)
              | _ => None
              end
  end.

(* ---- FileFragment::take, fragment.rs:1175-1228 ----
   partition_point is its contract on a sorted list; no u32 overflow (offsets
   stay below the fragment's row count). *)
Fixpoint skip_deleted (rest : list N) (new : N) : list N * N :=
  match rest with
  | x :: t => if x =? new then skip_deleted t (new + 1) else (rest, new)
  | [] => ([], new)
  end.
Fixpoint take_advance (i : nat) (rest : list N) (new : N) : N :=
  match i with
  | O => new
  | S i' => let '(rest', new') := skip_deleted rest (new + 1) in take_advance i' rest' new'
  end.
Definition take_index (sorted : list N) (idx : N) : N :=
  let offset := length (filter (fun v => v <=? idx) sorted) in
  take_advance offset (skipn offset sorted) idx.
(* deletion_vector = None: indices used as they are *)
Definition take_indices (d : option dv) (indices : list N) : list N :=
  match d with
  | None => indices
  | Some d => map (take_index (sort_list (dv_sorted_iter d))) indices
  end.

(* fragment.rs:1289-1305 row_ids_contiguous *)
Fixpoint contiguous_from (last : N) (l : list N) : bool :=
  match l with
  | [] => true
  | x :: t => if negb (x =? last + 1) then false else contiguous_from x t
  end.
Definition row_ids_contiguous (l : list N) : bool :=
  match l with [] => false | x :: t => contiguous_from x t end.

(* FragmentReader::patch_range_for_deletions, fragment.rs:2054-2068 *)
Fixpoint patch_range (sorted : list N) (start end_ : N) : N * N :=
  match sorted with
  | [] => (start, end_)
  | v :: t => if v <=? start then patch_range t (start + 1) (end_ + 1)
              else if v <? end_ then patch_range t start (end_ + 1)
              else (start, end_)
  end.

(* ---- deletion files, lance-table/src/io/deletion.rs:50-203 ----
   The Arrow IPC and roaring byte formats are parameters. *)
Inductive dfile_type := FArray | FBitmap.
Record dfile := { df_version : N; df_id : N; df_type : dfile_type; df_num : option nat }.
Section DFile.
  Variable ipc_write : list N -> list N.           (* one UInt32 batch -> bytes *)
  Variable ipc_read : list N -> option (list (list N)).  (* bytes -> batches *)
  Variable bm_write : list N -> list N.
  Variable bm_read : list N -> option (list N).

  (* 50-114; None = no file written *)
  Definition write_deletion_file (version id : N) (d : dv) : option (dfile * list N) :=
    match d with
    | NoDel => None
    | DSet s => Some ({| df_version := version; df_id := id; df_type := FArray;
                         df_num := Some (length s) |}, ipc_write s)
    | DBitmap b => Some ({| df_version := version; df_id := id; df_type := FBitmap;
                            df_num := Some (length b) |}, bm_write b)
    end.

  (* 121-203; [data] is what the store holds at the file's path; None = error *)
  Definition read_deletion_file (f : dfile) (data : list N) : option dv :=
    match df_type f with
    | FArray => match ipc_read data with
                | Some [vals] => Some (DSet (hs_extend [] vals))
                | _ => None
                end
    | FBitmap => omap DBitmap (bm_read data)
    end.
End DFile.

(* ---- FileFragment::delete / write_deletions, fragment.rs:1499-1621 ----
   The fragment is its physical row count and its current deletion vector.  The
   scan with the predicate delivers row addresses in batches; each slice
   iterator has an exact size hint. *)
Inductive del_pred := PTrue | PFalse | PScan (batches : list (list N)).
Inductive del_res := Removed | Unchanged | Updated (d : dv) | DelErr.

Definition write_deletions (physical : N) (d : dv) : del_res :=
  if (N.of_nat (dv_len d) =? physical) && dv_contains_range d 0 physical then Removed
  else if physical <=? N.of_nat (dv_len d) then DelErr
  else Updated d.

Definition frag_delete (physical : N) (d : dv) (p : del_pred) : del_res :=
  match p with
  | PTrue => Removed
  | PFalse => Unchanged
  | PScan batches =>
      let d' := fold_left (fun d b => let l := map (fun v => v mod two32) b in
                                      dv_extend d l (length l) (Some (length l))) batches d in
      if (dv_len d' =? dv_len d)%nat then Unchanged else write_deletions physical d'
  end.

(* fragment.rs:1566-1581 *)
Definition extend_deletions (physical : N) (d : dv) (items : list N) (lower : nat) (upper : option nat) : del_res :=
  write_deletions physical (dv_extend d items lower upper).

(* ---- DeletionRestorer, updater.rs:236-356, and add_blanks 359-406 ----
   A batch is a list of rows.  u32 overflow is not modelled. *)
Record restorer := { rs_cur : N; rs_legacy : option N; rs_iter : option (list N); rs_last : option N }.
Definition rs_new (d : dv) (legacy : option N) : restorer :=
  {| rs_cur := 0; rs_legacy := legacy; rs_iter := Some (dv_sorted_iter d); rs_last := None |}.
Definition rs_exhausted (r : restorer) : bool := match rs_iter r with None => true | _ => false end.

Definition is_full (legacy : option N) (num_rows : N) : bool :=
  match legacy with Some b => b =? num_rows | None => false end.

(* updater.rs:305-328: the loop; [todo] is next_deleted_id followed by the
   iterator.  Result: offsets, and the remaining iterator with the stashed id
   (None when exhausted). *)
Fixpoint offsets_loop (legacy : option N) (first : N) (todo : list N) (last num_rows : N)
  : list N * option (N * list N) :=
  match todo with
  | [] => ([], None)
  | nxt :: rest =>
      if (last <? nxt) || ((nxt =? last) && is_full legacy num_rows)
      then ([], Some (nxt, rest))
      else let '(o, r) := offsets_loop legacy first rest (last + 1) (num_rows + 1) in
           ((nxt - first) :: o, r)
  end.

(* updater.rs:289-329 *)
Definition deleted_batch_offsets (r : restorer) (num_rows : N) : list N * restorer :=
  match rs_iter r with
  | None => ([], r)
  | Some it =>
      let todo := match rs_last r with Some v => v :: it | None => it end in
      let '(offs, res) := offsets_loop (rs_legacy r) (rs_cur r) todo (rs_cur r + num_rows) num_rows in
      (offs, {| rs_cur := rs_cur r; rs_legacy := rs_legacy r;
                rs_iter := match res with Some (_, rest) => Some rest | None => None end;
                rs_last := match res with Some (v, _) => Some v | None => rs_last r end |})
  end.

(* updater.rs:375-388: the selection vector; positions in the batch *)
Fixpoint selection (offs : list N) (batch_pos next_id : N) (n : N) : list N :=
  match offs with
  | [] => nrng batch_pos n
  | o :: t => let k := o - next_id in
              nrng batch_pos (batch_pos + k) ++ 0 :: selection t (batch_pos + k) (o + 1) n
  end.
(* arrow take; None = out of bounds *)
Definition take_rows {A} (l : list A) (idx : list N) : option (list A) :=
  sequence_opt (map (fun i => nth_error l (N.to_nat i)) idx).

(* updater.rs:359-406; None = error *)
Definition add_blanks {A} (batch : list A) (offs : list N) : option (list A) :=
  match offs with
  | [] => Some batch
  | _ => if (length batch =? 0)%nat then None
         else take_rows batch (selection offs 0 0 (N.of_nat (length batch)))
  end.

(* updater.rs:331-355; None = error *)
Definition restore {A} (r : restorer) (batch : list A) : option (list A * restorer) :=
  let '(offs, r') := deleted_batch_offsets r (N.of_nat (length batch)) in
  match add_blanks batch offs with
  | None => None
  | Some out =>
      let n := N.of_nat (length out) in
      if match rs_legacy r' with Some b => negb (n =? b) && negb (rs_exhausted r') | None => false end
      then None
      else Some (out, {| rs_cur := rs_cur r' + n; rs_legacy := rs_legacy r';
                         rs_iter := rs_iter r'; rs_last := rs_last r' |})
  end.

(* Updater::next / update driven to the end (updater.rs:103-131, 156-207): the
   input batches are the surviving rows; [f] computes the new batch, which must
   have as many rows.  The result is the column written. *)
Fixpoint run_updater {A} (r : restorer) (batches : list (list A)) : option (list A) :=
  match batches with
  | [] => if rs_exhausted r then Some [] else None
  | b :: t => match restore r b with
              | Some (out, r') => omap (app out) (run_updater r' t)
              | None => None
              end
  end.
