(* Filtered scans of legacy (v1) fragments that skip pages by their statistics:
   rust/lance/src/io/exec/pushdown_scan.rs, the legacy_* functions of rust/lance/src/dataset/fragment.rs and the statistics
   part of rust/lance-file/src/writer.rs. *)
From Coq Require Import List Arith NArith ZArith Bool Lia.
From Verif Require Import Lib AMap RowIdsModel SerdeModel ReadParamsModel TreeMapModel DeletionModel StreamModel StatsModel.
Import ListNotations.
Local Open Scope nat_scope.

(* a row: the value of each field id, None for null *)
Definition row := nat -> option value.
Record field := { f_id : nat; f_type : dtype; f_nullable : bool; f_stats : bool }.

(* A fragment: its pages, each the batches handed to one FileWriter::write.  The data files of a fragment have the same
   pages, so they are one table here.  [g_seq] is the row-id sequence of a fragment with stable row ids. *)
Record frag := { g_id : N; g_fields : list field; g_pages : list (list (list row)); g_dv : option dv; g_seq : option rowseq }.
Definition page_rows (p : list (list row)) : list row := concat p.

(* writer.rs:188-198, 709-743: one row of statistics per write, from the arrays of the batches (all fields here are
   leaves) *)
Definition arrays_of (f : nat) (p : list (list row)) : list (list (option value)) := map (map (fun r => r f)) p.
(* statistics.rs:638-672: a missing bound of a field that is not nullable makes StructArray::new panic *)
Definition has_bounds (s : stat) : bool := match st_min s, st_max s with Some _, Some _ => true | _, _ => false end.
Definition finish_stats (f : field) (l : list stat) : option (list stat) :=
  if negb (f_nullable f) && negb (forallb has_bounds l) then None else Some l.
Definition field_stats (g : frag) (f : field) : option (list stat) :=
  match sequence_opt (map (fun p => collect_statistics (f_type f) (arrays_of (f_id f) p)) (g_pages g)) with
  | Some l => finish_stats f l
  | None => None
  end.
(* the statistics of the file: one entry per field that supports them; None: the write panicked *)
Definition file_stats (g : frag) : option (list (nat * list stat)) :=
  sequence_opt (map (fun f => match field_stats g f with Some l => Some (f_id f, l) | None => None end) (filter f_stats (g_fields g))).

(* DataFusion's NullableInterval; a missing bound is unbounded *)
Inductive ninterval := NNull | NMaybe (lo hi : option value) | NNot (lo hi : option value).

(* order of ScalarValues of one type *)
Definition vcmp (a b : value) : comparison :=
  match a, b with
  | VInt x, VInt y => Z.compare x y
  | VBool x, VBool y => match x, y with false, true => Lt | true, false => Gt | _, _ => Eq end
  | VFloat x, VFloat y => Z.compare (f_key x) (f_key y)
  | VBytes x, VBytes y => bcmp x y
  | _, _ => Gt
  end.
(* Interval::try_new(..).unwrap(): None (a panic) when the bounds are not in order *)
Definition interval_new (lo hi : option value) : option (option value * option value) :=
  match lo, hi with
  | Some a, Some b => match vcmp a b with Gt => None | _ => Some (lo, hi) end
  | _, _ => Some (lo, hi)
  end.

(* pushdown_scan.rs:574-631: the guarantees of one page; [sizes] is its number of rows.  A field without statistics gives
   no guarantee. *)
Definition field_guarantee (stats : list (nat * list stat)) (b size : nat) (f : field) : option (option (nat * ninterval)) :=
  match find (fun e => fst e =? f_id f) stats with
  | None => Some None
  | Some (_, l) =>
      match nth_error l b with
      | None => None
      | Some s =>
          let nulls := if f_nullable f then st_nulls s else 0%N in
          match interval_new (st_min s) (st_max s) with
          | None => None
          | Some (lo, hi) =>
              Some (Some (f_id f, if (nulls =? 0)%N then NNot lo hi
                                  else if (nulls =? N.of_nat size)%N then NNull else NMaybe lo hi))
          end
      end
  end.
Definition guarantees (stats : list (nat * list stat)) (fs : list field) (b size : nat) : option (list (nat * ninterval)) :=
  match sequence_opt (map (field_guarantee stats b size) fs) with
  | Some l => Some (flat_map (fun o => match o with Some x => [x] | None => [] end) l)
  | None => None
  end.

(* The expression language and DataFusion's ExprSimplifier with guarantees; [e_simplify] may fail (None). *)
Record lang := {
  expr : Type;
  e_eval : expr -> row -> option bool;
  e_columns : expr -> list nat;
  e_literal : expr -> option (option bool);
  e_simplify : list (nat * ninterval) -> expr -> option expr }.

(* pushdown_scan.rs:635-676; fragment.rs:1817-1838: no statistics when none of the columns has any *)
Definition pred_fields {L : lang} (g : frag) (e : expr L) : list field := filter (fun f => memb (f_id f) (e_columns L e)) (g_fields g).
Definition page_predicate {L : lang} (g : frag) (stats : list (nat * list stat)) (e : expr L) (b : nat) (p : list (list row)) : option (expr L) :=
  match guarantees stats (pred_fields g e) b (length (page_rows p)) with
  | None => None
  | Some gs => match e_simplify L gs e with Some e' => Some e' | None => Some e end
  end.
Definition simplified_predicates {L : lang} (g : frag) (e : expr L) : option (list (expr L)) :=
  match file_stats g with
  | None => None
  | Some stats =>
      if existsb (fun f => f_stats f) (pred_fields g e) && negb (length (g_pages g) =? 0)
      then sequence_opt (map (fun '(b, p) => page_predicate g stats e b p) (combine (seq 0 (length (g_pages g))) (g_pages g)))
      else Some (map (fun _ => e) (g_pages g))
  end.

(* fragment.rs:1848-1936 for the two requests made by the scan: a whole page and a list of rows of a page.  All pages but
   the last are taken to be as long as the first. *)
Definition keep_fields (fs : list nat) (r : row) : row := fun f => if memb f fs then r f else None.
Definition first_page_len (g : frag) : nat := match g_pages g with p :: _ => length (page_rows p) | [] => 0 end.
Definition legacy_read (g : frag) (b : nat) (sel : option (list nat)) (with_id with_addr null : bool) (fs : list nat)
  : outcome (list (orow row)) :=
  match nth_error (g_pages g) b with
  | None => Panic
  | Some p =>
      let rows := page_rows p in
      let off := b * first_page_len g in
      let picked := match sel with None => Some rows | Some l => sequence_opt (map (nth_error rows) l) end in
      let params := match sel with None => PRange off (off + length rows) | Some l => PIdx (map (fun i => i + off) l) end in
      match picked with
      | None => Err
      | Some vals =>
          apply_row_id_and_deletes (map (keep_fields fs) vals) 0 (g_id g)
            {| c_params := params; c_with_id := with_id; c_with_addr := with_addr; c_dv := g_dv g; c_seq := g_seq g; c_null := null |}
      end
  end.

Record scan_config := { k_id : bool; k_addr : bool; k_fields : list nat }.
Record out_row := { u_vals : list (option value); u_id : cell; u_addr : cell }.
(* pushdown_scan.rs:505-532 *)
Definition final_projection (k : scan_config) (o : orow row) : out_row :=
  {| u_vals := map (o_val o) (k_fields k); u_id := if k_id k then o_id o else NoCol; u_addr := if k_addr k then o_addr o else NoCol |}.

(* evaluating the predicate on the batch: a scalar when it names no column *)
Inductive columnar := Scalar (v : option bool) | Arr (l : list (option bool)).
Definition evaluate {L : lang} (e : expr L) (batch : list (orow row)) : columnar :=
  match e_columns L e with [] => Scalar (e_eval L e (fun _ => None)) | _ => Arr (map (fun o => e_eval L e (o_val o)) batch) end.
Definition is_val (c : cell) : bool := match c with CVal _ => true | _ => false end.
(* pushdown_scan.rs:421-437: positions that match and are not deleted *)
Definition matched (arr : list (option bool)) (batch : list (orow row)) : list nat :=
  flat_map (fun '(i, (m, o)) => if match m with Some true => true | _ => false end && is_val (o_addr o) then [i] else [])
           (combine (seq 0 (length batch)) (combine arr batch)).
(* RecordBatch::merge of two batches: the columns of both; Err when the lengths differ *)
Definition merge_rows (pcols : list nat) (a b : list (orow row)) : outcome (list (orow row)) :=
  if length a =? length b
  then Ok (map (fun '(x, y) => {| o_val := fun f => if memb f pcols then o_val x f else o_val y f; o_id := o_id x; o_addr := o_addr x |}) (combine a b))
  else Err.

(* pushdown_scan.rs:346-503; None: nothing to emit.  make_deletions_null of the configuration is false in the only call
   (scanner.rs:1385). *)
Definition read_batch {L : lang} (g : frag) (k : scan_config) (b : nat) (e : expr L) : outcome (option (list out_row)) :=
  match e_literal L e with
  | Some (Some true) =>
      match legacy_read g b None (k_id k) (k_addr k) false (k_fields k) with
      | Ok rows => Ok (Some (map (final_projection k) rows))
      | Err => Err | Panic => Panic
      end
  | Some (Some false) => Ok None
  | _ =>
      let pcols := e_columns L e in
      match legacy_read g b None (k_id k) true true pcols with
      | Err => Err | Panic => Panic
      | Ok batch =>
          let sel := match evaluate e batch with
                     | Scalar (Some true) => Some None
                     | Scalar _ => None
                     | Arr arr => match matched arr batch with [] => None | l => Some (Some l) end
                     end in
          match sel with
          | None => Ok None
          | Some sel =>
              let remaining := filter (fun f => negb (memb f pcols)) (k_fields k) in
              let remainder := match remaining with
                               | [] => Ok None
                               | _ => match legacy_read g b sel false false false remaining with
                                      | Ok r => Ok (Some r) | Err => Err | Panic => Panic end
                               end in
              match remainder with
              | Err => Err | Panic => Panic
              | Ok remainder =>
                  let taken := match sel with
                               | Some l => sequence_opt (map (nth_error batch) l)
                               | None => Some (filter (fun o => is_val (o_addr o)) batch)
                               end in
                  match taken with
                  | None => Err
                  | Some taken =>
                      match (match remainder with None => Ok taken | Some r => merge_rows pcols taken r end) with
                      | Ok rows => Ok (Some (map (final_projection k) rows))
                      | Err => Err | Panic => Panic
                      end
                  end
              end
          end
      end
  end.

(* pushdown_scan.rs:302-344: pages whose predicate is the literal false are skipped; the output is in page order (with
   ordered_output off the batches may come in any order) *)
Definition is_false {L : lang} (e : expr L) : bool := match e_literal L e with Some (Some false) => true | _ => false end.
Fixpoint scan_pages {L : lang} (g : frag) (k : scan_config) (l : list (nat * expr L)) : outcome (list out_row) :=
  match l with
  | [] => Ok []
  | (b, e) :: t =>
      if is_false e then scan_pages g k t
      else match read_batch g k b e with
           | Ok o => match scan_pages g k t with
                     | Ok r => Ok ((match o with Some rows => rows | None => [] end) ++ r)
                     | Err => Err | Panic => Panic end
           | Err => Err | Panic => Panic
           end
  end.
Definition frag_scan {L : lang} (g : frag) (k : scan_config) (e : expr L) : outcome (list out_row) :=
  match simplified_predicates g e with
  | None => Panic
  | Some es => scan_pages g k (combine (seq 0 (length es)) es)
  end.
(* pushdown_scan.rs:180-222: the fragments in order *)
Fixpoint pushdown_scan {L : lang} (gs : list frag) (k : scan_config) (e : expr L) : outcome (list out_row) :=
  match gs with
  | [] => Ok []
  | g :: t => match frag_scan g k e with
              | Ok a => match pushdown_scan t k e with Ok r => Ok (a ++ r) | Err => Err | Panic => Panic end
              | Err => Err | Panic => Panic
              end
  end.
