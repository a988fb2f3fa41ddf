(* Updating a table by a condition or by a join with new data:
   rust/lance/src/dataset/write/merge_insert.rs and write/update.rs.

   A cell is an optional integer (None = null), a row the list of its cells in
   schema order.  Expressions are arbitrary functions of rows, three-valued when
   they are conditions.  Joins (DataFusion), the writer of new data files and the
   scan are contracts: the join's output is the multiset given below in any order
   and any batches, new fragments hold the written rows in order, a scan returns
   the surviving rows with their ids.  Blob columns, spilling, memory limits and
   nullability of schemas are not modelled. *)
From Coq Require Import List Arith NArith ZArith Bool Lia Permutation.
From Verif Require Import Lib AMap SerdeModel DeletionModel.
Import ListNotations.
Local Open Scope N_scope.

Notation cell := (option Z).
Definition row := list cell.

(* a fragment: id, stored rows, deletion vector, and its row id sequence when the
   table has stable row ids (lance-table format/fragment.rs:229-262) *)
Record tfrag := { tf_id : N; tf_rows : list row; tf_del : dv; tf_ids : option (list N) }.
Definition table := list tfrag.

(* a scanned row with its _rowid and _rowaddr *)
Record trow := { tr_id : N; tr_addr : N; tr_row : row }.

(* RowAddress::new_from_parts, lance-core utils/address.rs:10-30 *)
Definition addr (f off : N) : N := f * two32 + off.
(* the _rowid of a stored row: its stable id, else its address
   (lance/src/dataset/rowids.rs, lance-table utils/stream.rs:150-226) *)
Definition row_id_at (f : tfrag) (off : N) : N :=
  match tf_ids f with Some l => nth (N.to_nat off) l 0 | None => addr (tf_id f) off end.
Definition offsets (f : tfrag) : list (N * row) := combine (nrange 0 (length (tf_rows f))) (tf_rows f).
Definition scan_frag (f : tfrag) : list trow :=
  map (fun p => {| tr_id := row_id_at f (fst p); tr_addr := addr (tf_id f) (fst p); tr_row := snd p |})
      (filter (fun p => negb (dv_contains (tf_del f) (fst p))) (offsets f)).
Definition scan (t : table) : list trow := flat_map scan_frag t.
(* what a user sees of a table *)
Definition contents (t : table) : list row := map tr_row (scan t).

(* ---- apply_deletions, merge_insert.rs:1110-1155 and update.rs:309-360 ----
   The removed row ids are a RoaringTreemap; bitmaps() are its 32-bit bitmaps keyed
   by the upper half.  Futures run unordered; the fragments are told apart by id. *)
Definition bitmap_of (ids : list N) (key : N) : list N :=
  map (fun x => x mod two32) (filter (fun x => x / two32 =? key) (s_of_list ids)).
Inductive change := CUnchanged | CModified (f : tfrag) | CRemoved (id : N) | CErr.
Definition frag_change (ids : list N) (f : tfrag) : change :=
  match bitmap_of ids (tf_id f mod two32) with
  | [] => CUnchanged
  | b => match extend_deletions (N.of_nat (length (tf_rows f))) (tf_del f) b (length b) (Some (length b)) with
         | Updated d => CModified {| tf_id := tf_id f; tf_rows := tf_rows f; tf_del := d; tf_ids := tf_ids f |}
         | Removed => CRemoved (tf_id f)
         | _ => CErr
         end
  end.
Fixpoint apply_deletions (t : table) (ids : list N) : option (list tfrag * list N) :=
  match t with
  | [] => Some ([], [])
  | f :: t' =>
      match apply_deletions t' ids with
      | None => None
      | Some (ups, rms) => match frag_change ids f with
                           | CUnchanged => Some (ups, rms)
                           | CModified f' => Some (f' :: ups, rms)
                           | CRemoved i => Some (ups, i :: rms)
                           | CErr => None
                           end
      end
  end.

(* Operation::Update in build_manifest, transaction.rs:727-765: removed fragments are
   left out, updated ones replace the fragment of their id, new ones follow *)
Definition commit_update (t : table) (removed : list N) (updated new : list tfrag) : table :=
  flat_map (fun f => if memN (tf_id f) removed then []
                     else match find (fun u => tf_id u =? tf_id f) updated with
                          | Some u => [u]
                          | None => [f]
                          end) t ++ new.

(* ---- UPDATE, update.rs:222-308 ---- *)
Definition replace_col (r : row) (c : nat) (v : cell) : row := firstn c r ++ v :: skipn (S c) r.
(* apply_updates, update.rs:296-306: one column after the other, each expression
   evaluated on the batch as changed so far; [ups] is the order of the HashMap *)
Definition apply_updates (ups : list (nat * (row -> cell))) (r : row) : row :=
  fold_left (fun b cu => replace_col b (fst cu) (snd cu b)) ups r.

(* RoaringTreemap::append as used by extract_row_ids, utils.rs:37-42: an error
   unless every id is greater than all before *)
Fixpoint append_ids (last : option N) (ids : list N) : bool :=
  match ids with
  | [] => true
  | x :: t => match last with Some l => l <? x | None => true end && append_ids (Some x) t
  end.

(* UpdateJob::execute, update.rs:222-294: [cond] is the scanner's filter *)
Definition true_on (c : row -> option bool) (r : row) : bool :=
  match c r with Some true => true | _ => false end.
Definition update_rows (cond : row -> option bool) (t : table) : list trow :=
  filter (fun x => true_on cond (tr_row x)) (scan t).
Definition update_output (cond : row -> option bool) (ups : list (nat * (row -> cell))) (t : table) : list row :=
  map (fun x => apply_updates ups (tr_row x)) (update_rows cond t).
Definition update_table (cond : row -> option bool) (t : table) (new : list tfrag) : option table :=
  let ids := map tr_id (update_rows cond t) in
  if append_ids None ids
  then match apply_deletions t ids with
       | Some (ups, rms) => Some (commit_update t rms ups new)
       | None => None
       end
  else None.
(* write_fragments_internal: fragments holding the stream's rows in order *)
Definition written (rows : list row) (new : list tfrag) : Prop :=
  concat (map tf_rows new) = rows /\ forall f, In f new -> tf_del f = NoDel.

(* ---- MERGE INSERT ---- *)
(* merge_insert.rs:126-180 *)
Inductive when_matched := DoNothing | UpdateAll | UpdateIf (e : row -> row -> option bool).
Inductive when_not_by_source := Keep | DeleteAll | DeleteIf (e : row -> option bool).
Record params := { p_on : list nat; p_matched : when_matched; p_insert : bool; p_source : when_not_by_source }.

(* a joined row: the source row if any and the target row if any *)
Definition jrow := (option row * option trow)%type.

(* the join's condition; the dataframe join (552-600) never matches null with null,
   the HashJoinExec of the indexed path (485-505) does (null_equals_null = true) *)
Definition cell_eq (nulls : bool) (a b : cell) : bool :=
  match a, b with
  | Some x, Some y => (x =? y)%Z
  | None, None => nulls
  | _, _ => false
  end.
Definition cell_at (r : row) (c : nat) : cell := nth c r None.
Definition keys_match (nulls : bool) (on : list nat) (s t : row) : bool :=
  forallb (fun c => cell_eq nulls (cell_at s c) (cell_at t c)) on.

(* JoinType::Full *)
Definition full_join (nulls : bool) (on : list nat) (src : list row) (tgt : list trow) : list jrow :=
  flat_map (fun s => match filter (fun t => keys_match nulls on s (tr_row t)) tgt with
                     | [] => [(Some s, None)]
                     | ms => map (fun t => (Some s, Some t)) ms
                     end) src
  ++ map (fun t => (None, Some t)) (filter (fun t => negb (existsb (fun s => keys_match nulls on s (tr_row t)) src)) tgt).
(* the rows of a Left (or, without inserts, Inner) join, 575-590 *)
Definition left_join (insert : bool) (on : list nat) (src : list row) (tgt : list trow) : list jrow :=
  flat_map (fun s => match filter (fun t => keys_match false on s (tr_row t)) tgt with
                     | [] => if insert then [(Some s, None)] else []
                     | ms => map (fun t => (Some s, Some t)) ms
                     end) src.

(* not_all_null, 1245-1262: some of the first [n] columns of this side is not null;
   the side missing from an outer join is all null *)
Definition not_all_null (n : nat) (r : row) : bool :=
  existsb (fun c : cell => match c with Some _ => true | None => false end) (firstn n r).
Definition null_row (w : nat) : row := repeat None w.
Definition left_side (w : nat) (j : jrow) : row := match fst j with Some r => r | None => null_row w end.
Definition right_side (w : nat) (j : jrow) : row := match snd j with Some t => tr_row t | None => null_row w end.
(* the row id column; null when there is no target row, and then values() holds 0 *)
Definition right_id (j : jrow) : N := match snd j with Some t => tr_id t | None => 0 end.
Definition right_addr (j : jrow) : option N := option_map tr_addr (snd j).

(* extract_selections, 1264-1290; [n] is the number of keys, [w] the source's width *)
Definition in_left (n w : nat) (j : jrow) : bool := not_all_null n (left_side w j).
Definition in_right (n w : nat) (j : jrow) : bool := not_all_null n (right_side w j).
Definition in_both n w j := in_left n w j && in_right n w j.
Definition left_only n w j := in_left n w j && negb (in_right n w j).
Definition right_only n w j := negb (in_left n w j) && in_right n w j.

Record stats := { st_inserted : nat; st_updated : nat; st_deleted : nat }.
(* execute_batch, 1298-1465: output rows (with the target's address) in order,
   deleted row ids, counters *)
Definition matched_rows (p : params) (n w : nat) (b : list jrow) : list jrow :=
  match p_matched p with
  | DoNothing => []
  | UpdateAll => filter (in_both n w) b
  | UpdateIf e => filter (fun j => match e (left_side w j) (right_side w j) with Some true => true | _ => false end)
                         (filter (in_both n w) b)
  end.
Definition not_matched_rows (p : params) (n w : nat) (b : list jrow) : list jrow :=
  if p_insert p then filter (left_only n w) b else [].
Definition by_source_rows (p : params) (n w : nat) (b : list jrow) : list jrow :=
  match p_source p with
  | Keep => []
  | DeleteAll => filter (right_only n w) b
  | DeleteIf e => filter (fun j => true_on e (right_side w j)) (filter (right_only n w) b)
  end.
Definition output (w : nat) (j : jrow) : row * option N := (left_side w j, right_addr j).
Definition execute_batch (p : params) (w : nat) (b : list jrow) : list (row * option N) * list N * stats :=
  let n := length (p_on p) in
  let m := matched_rows p n w b in
  let i := not_matched_rows p n w b in
  let d := by_source_rows p n w b in
  (map (output w) m ++ map (output w) i, map right_id m ++ map right_id d,
   {| st_inserted := length i; st_updated := length m; st_deleted := length d |}).

Definition out_rows (p : params) (w : nat) (bs : list (list jrow)) : list (row * option N) :=
  flat_map (fun b => fst (fst (execute_batch p w b))) bs.
Definition out_deleted (p : params) (w : nat) (bs : list (list jrow)) : list N :=
  flat_map (fun b => snd (fst (execute_batch p w b))) bs.
Definition out_stats (p : params) (w : nat) (bs : list (list jrow)) : stats :=
  fold_left (fun a b => let s := snd (execute_batch p w b) in
                        {| st_inserted := st_inserted a + st_inserted s; st_updated := st_updated a + st_updated s;
                           st_deleted := st_deleted a + st_deleted s |}) bs
            {| st_inserted := 0; st_updated := 0; st_deleted := 0 |}.

(* execute_uncommitted_impl with a source of the full schema, 1061-1092: [new] are the
   fragments holding the output rows *)
Definition merge_table (p : params) (w : nat) (t : table) (bs : list (list jrow)) (new : list tfrag) : option table :=
  match apply_deletions t (out_deleted p w bs) with
  | Some (ups, rms) => Some (commit_update t rms ups new)
  | None => None
  end.

(* the target rows of the indexed path, create_indexed_scan_joined_stream 385-515 and
   MapIndexExec io/exec/scalar_index.rs:160-330: for every source batch the rows of the
   indexed fragments whose key is among the batch's (non-null) keys, then all rows of the
   other fragments.  The index itself is exact (C59-C62). *)
Definition indexed_targets (key : nat) (indexed : N -> bool) (t : table) (src : list (list row)) : list trow :=
  flat_map (fun b => filter (fun x => existsb (fun s => cell_eq false (cell_at s key) (cell_at (tr_row x) key)) b)
                            (scan (filter (fun f => indexed (tf_id f)) t))) src
  ++ scan (filter (fun f => negb (indexed (tf_id f))) t).

(* ---- sources with fewer columns: update_fragments, 666-1000 ----
   The output rows are sorted by address (nulls first) and grouped by fragment; an
   updated fragment gets a new data file for the source's columns. *)
Fixpoint ins_addr {A} (x : N * A) (l : list (N * A)) : list (N * A) :=
  match l with [] => [x] | y :: t => if fst x <=? fst y then x :: l else y :: ins_addr x t end.
Definition sort_addr {A} (l : list (N * A)) : list (N * A) := fold_right ins_addr [] l.
Definition with_addr (out : list (row * option N)) : list (N * row) :=
  flat_map (fun p => match snd p with Some a => [(a, fst p)] | None => [] end) out.
Definition group (f : N) (out : list (row * option N)) : list (N * row) :=
  filter (fun p => fst p / two32 =? f) (sort_addr (with_addr out)).
(* handle_new_fragments: the rows of the null group *)
Definition new_rows (out : list (row * option N)) : list row :=
  flat_map (fun p => match snd p with None => [fst p] | Some _ => [] end) out.

(* the interleave loop of handle_fragment, 806-850, on one batch of the updater: the
   updates left over and the new values.  (Debug builds also assert that the next
   update lies ahead.) *)
Fixpoint interleave (ups : list (N * row)) (batch : list (N * row)) : list row * list (N * row) :=
  match batch with
  | [] => ([], ups)
  | (a, old) :: t =>
      match ups with
      | (u, v) :: ups' =>
          if u =? a then let '(o, r) := interleave ups' t in (v :: o, r)
          else let '(o, r) := interleave ups t in (old :: o, r)
      | [] => let '(o, r) := interleave ups t in (old :: o, r)
      end
  end.
Fixpoint interleave_all (ups : list (N * row)) (batches : list (list (N * row))) : list (list row) :=
  match batches with
  | [] => []
  | b :: t => let '(o, r) := interleave ups b in o :: interleave_all r t
  end.

(* handle_fragment, 693-850: the rows of the new data file.  [old] are the surviving rows
   of the fragment (address, cells of the source's columns) in the updater's batches. *)
Definition new_file (f : tfrag) (ups : list (N * row)) (old : list (list (N * row))) : option (list row) :=
  if (length ups =? length (tf_rows f))%nat then Some (map snd ups)
  else run_updater (rs_new (tf_del f) None) (interleave_all ups old).

(* unzip_batch, 102-125, called on the matched rows for UpdateIf: two struct arrays of
   the source schema's [w] fields, made from columns 0..half and half..last; building a
   StructArray of another number of columns panics.  A full source gives 2w+1 columns,
   a partial one 2w+2. *)
Definition unzip_ok (w num_columns : nat) : bool :=
  let half := Nat.div num_columns 2 in
  (Nat.eqb half w && Nat.eqb (num_columns - 1 - half) w)%bool.
Definition joined_columns (partial : bool) (w : nat) : nat := if partial then (2 * w + 2)%nat else (2 * w + 1)%nat.

(* tombstones, 970-983: fields rewritten by the last file are marked -2 in the others *)
Definition tombstone (files : list (list Z)) : list (list Z) :=
  match rev files with
  | [] => []
  | lastf :: before =>
      rev (lastf :: map (map (fun x => if existsb (Z.eqb x) lastf then (-2)%Z else x)) before)
  end.
