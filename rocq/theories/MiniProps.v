(* C109: pages of the mini-block layout. *)
From Coq Require Import List Arith NArith ZArith Bool Permutation Sorted.
From Verif Require Import Lib SerdeModel RepDefModel FullZipModel FullZipProofs FullZipRead FullZipPage FullZipVar FullZipExamples MiniModel MiniProofs MiniSched MiniBytes MiniPage MiniRead MiniString MiniExamples.
Import ListNotations.
Local Open Scope nat_scope.

(* A page written with any chunks whose values a decompressor gives back, maybe followed by others: sorted ranges of rows, in any batches, are read as they were written, if no chunk without a row start lies just before a range. Missing: the pages that mini_ok excludes and those chunks, refuted below. *)
Theorem C109_page_partial : forall ms hd ipr rows dec ps p rs ns, mini_ok ms hd ipr rows -> parts_ok dec ps -> ps <> [] -> flat_map t_vals ps = page_vals rows ->
  encode_mini (page_levels ms hd rows) (length (page_vals rows)) (blocks_parts ps) = Some p ->
  sorted 0 (length rows) rs -> (has_lists ms = true -> Forall (fun r => row_clean (lists ms) (carve (lens ps) (concat rows)) (fst r)) rs) ->
  Forall (fun n => 0 < n) ns -> sumn ns <= length (flat_map (pick rows) rs) ->
  read_mini dec p ipr rs ns = Some (map (batch_of ms hd) (groups ns (flat_map (pick rows) rs))).
Proof. exact @mini_read. Qed.
Print Assumptions C109_page_partial.

(* The same for a page read from first to last row, with no condition on its chunks. *)
Theorem C109_scan_partial : forall ms hd ipr rows dec ps p ns, mini_ok ms hd ipr rows -> parts_ok dec ps -> ps <> [] -> flat_map t_vals ps = page_vals rows ->
  encode_mini (page_levels ms hd rows) (length (page_vals rows)) (blocks_parts ps) = Some p -> Forall (fun n => 0 < n) ns -> sumn ns = length rows ->
  read_mini dec p ipr [(0, length rows)] ns = Some (map (batch_of ms hd) (groups ns rows)).
Proof. exact @mini_scan. Qed.
Print Assumptions C109_scan_partial.

(* Values of a fixed width without lists: every page is written, and sorted ranges in any batches read back. *)
Theorem C109_value_flat : forall ms hd ipr rows w rs ns, mini_ok ms hd ipr rows -> has_lists ms = false -> 0 < w -> (N.of_nat (2 * w) < 8186)%N -> Forall (fun v => length v = w) (page_vals rows) ->
  sorted 0 (length rows) rs -> Forall (fun n => 0 < n) ns -> sumn ns <= length (flat_map (pick rows) rs) ->
  exists b p, value_blocks w (page_vals rows) = Some b /\ encode_mini (page_levels ms hd rows) (length (page_vals rows)) b = Some p /\
    read_mini (value_decode w) p ipr rs ns = Some (map (batch_of ms hd) (groups ns (flat_map (pick rows) rs))).
Proof. exact @value_flat. Qed.
Print Assumptions C109_value_flat.

(* Values of a fixed width with lists: a page that can be written reads back whole in any batches. Missing: the pages not written, refuted below. *)
Theorem C109_value_lists_scan_partial : forall ms hd rows w ns, mini_ok ms hd 1 rows -> 0 < w -> (N.of_nat (2 * w) < 8186)%N -> Forall (fun v => length v = w) (page_vals rows) -> writable ms w rows ->
  Forall (fun n => 0 < n) ns -> sumn ns = length rows ->
  exists b p, value_blocks w (page_vals rows) = Some b /\ encode_mini (page_levels ms hd rows) (length (page_vals rows)) b = Some p /\
    read_mini (value_decode w) p 1 [(0, length rows)] ns = Some (map (batch_of ms hd) (groups ns rows)).
Proof. exact @value_lists_scan. Qed.
Print Assumptions C109_value_lists_scan_partial.

(* The same for sorted ranges, if no row has more items than a chunk. *)
Theorem C109_value_lists_ranges_partial : forall ms hd rows w g per rs ns, mini_ok ms hd 1 rows -> 0 < w -> vals_per_chunk w = Some (g, per) -> Forall (fun v => length v = w) (page_vals rows) -> writable ms w rows ->
  Forall (fun r => length r <= per) rows -> sorted 0 (length rows) rs -> Forall (fun n => 0 < n) ns -> sumn ns <= length (flat_map (pick rows) rs) ->
  exists b p, value_blocks w (page_vals rows) = Some b /\ encode_mini (page_levels ms hd rows) (length (page_vals rows)) b = Some p /\
    read_mini (value_decode w) p 1 rs ns = Some (map (batch_of ms hd) (groups ns (flat_map (pick rows) rs))).
Proof. exact @value_lists_ranges. Qed.
Print Assumptions C109_value_lists_ranges_partial.

(* A page read whole in one batch gives the levels and the values that were written. *)
Theorem C109_value_whole_partial : forall ms hd ipr rows w, mini_ok ms hd ipr rows -> 0 < w -> (N.of_nat (2 * w) < 8186)%N -> Forall (fun v => length v = w) (page_vals rows) -> writable ms w rows ->
  exists b p o, value_blocks w (page_vals rows) = Some b /\ encode_mini (page_levels ms hd rows) (length (page_vals rows)) b = Some p /\
    read_mini (value_decode w) p ipr [(0, length rows)] [length rows] = Some [o] /\ batch_levels ms o = page_levels ms hd rows /\ o_vals o = page_vals rows.
Proof. exact @value_whole. Qed.
Print Assumptions C109_value_whole_partial.

(* Strings of less than 256 bytes without lists: every page is written, and sorted ranges in any batches read back. *)
Theorem C109_string_flat : forall ms hd ipr rows rs ns, mini_ok ms hd ipr rows -> has_lists ms = false -> Forall (fun v => length v < 256) (page_vals rows) ->
  sorted 0 (length rows) rs -> Forall (fun n => 0 < n) ns -> sumn ns <= length (flat_map (pick rows) rs) ->
  exists p, encode_mini (page_levels ms hd rows) (length (page_vals rows)) (binary_blocks (sums 0 (page_vals rows)) (concat (page_vals rows))) = Some p /\
    read_mini binary_decode p ipr rs ns = Some (map (batch_of ms hd) (groups ns (flat_map (pick rows) rs))).
Proof. exact @string_flat. Qed.
Print Assumptions C109_string_flat.

(* Lists of strings: a page with values, and not more than 2000 lists without, is written and reads back whole in any batches. *)
Theorem C109_string_lists_scan_partial : forall ms hd rows ns, mini_ok ms hd 1 rows -> page_vals rows <> [] -> Forall (fun v => length v < 256) (page_vals rows) -> length (concat rows) <= length (page_vals rows) + 2000 ->
  Forall (fun n => 0 < n) ns -> sumn ns = length rows ->
  exists p, encode_mini (page_levels ms hd rows) (length (page_vals rows)) (binary_blocks (sums 0 (page_vals rows)) (concat (page_vals rows))) = Some p /\
    read_mini binary_decode p 1 [(0, length rows)] ns = Some (map (batch_of ms hd) (groups ns rows)).
Proof. exact @string_lists_scan. Qed.
Print Assumptions C109_string_lists_scan_partial.

(* The same for sorted ranges, if no row has more than eight items. *)
Theorem C109_string_lists_ranges_partial : forall ms hd rows rs ns, mini_ok ms hd 1 rows -> page_vals rows <> [] -> Forall (fun v => length v < 256) (page_vals rows) -> length (concat rows) <= length (page_vals rows) + 2000 ->
  Forall (fun r => length r <= 8) rows -> sorted 0 (length rows) rs -> Forall (fun n => 0 < n) ns -> sumn ns <= length (flat_map (pick rows) rs) ->
  exists p, encode_mini (page_levels ms hd rows) (length (page_vals rows)) (binary_blocks (sums 0 (page_vals rows)) (concat (page_vals rows))) = Some p /\
    read_mini binary_decode p 1 rs ns = Some (map (batch_of ms hd) (groups ns (flat_map (pick rows) rs))).
Proof. exact @string_lists_ranges. Qed.
Print Assumptions C109_string_lists_ranges_partial.

(* A page of strings read whole in one batch gives the levels and the values that were written. *)
Theorem C109_string_whole_partial : forall ms hd ipr rows, mini_ok ms hd ipr rows -> page_vals rows <> [] -> Forall (fun v => length v < 256) (page_vals rows) -> (has_lists ms = true -> length (concat rows) <= length (page_vals rows) + 2000) ->
  exists p o, encode_mini (page_levels ms hd rows) (length (page_vals rows)) (binary_blocks (sums 0 (page_vals rows)) (concat (page_vals rows))) = Some p /\
    read_mini binary_decode p ipr [(0, length rows)] [length rows] = Some [o] /\ batch_levels ms o = page_levels ms hd rows /\ o_vals o = page_vals rows.
Proof. exact @string_whole. Qed.
Print Assumptions C109_string_whole_partial.

(* Lists of as many values as whole chunks hold: the writer panics. *)
Theorem C109_full_chunks_refuted : exists rows b, mini_ok ms_plain false 1 rows /\ Forall (fun v => length v = 16) (page_vals rows) /\ length rows = 256 /\
  value_blocks 16 (page_vals rows) = Some b /\ encode_mini (page_levels ms_plain false rows) (length (page_vals rows)) b = None.
Proof. exact @full_chunks_refuted. Qed.
Print Assumptions C109_full_chunks_refuted.

(* One value and 5000 empty lists: the writer panics. *)
Theorem C109_empty_lists_refuted : exists rows b, mini_ok [AllValidItem; EmptyableList] true 1 rows /\ page_vals rows = [v16 7] /\ value_blocks 16 (page_vals rows) = Some b /\ encode_mini (page_levels [AllValidItem; EmptyableList] true rows) 1 b = None.
Proof. exact @empty_lists_refuted. Qed.
Print Assumptions C109_empty_lists_refuted.

(* The row after one that fills a chunk cannot be read alone. *)
Theorem C109_long_row_refuted : exists b p, value_blocks 16 (page_vals ex_long) = Some b /\ encode_mini (page_levels ms_plain false ex_long) (length (page_vals ex_long)) b = Some p /\ read_mini (value_decode 16) p 1 [(1, 2)] [1] = None.
Proof. exact @long_row_refuted. Qed.
Print Assumptions C109_long_row_refuted.

(* A row over several chunks cannot be taken twice. *)
Theorem C109_twice_refuted : exists b p, value_blocks 16 (page_vals ex_long) = Some b /\ encode_mini (page_levels ms_plain false ex_long) (length (page_vals ex_long)) b = Some p /\ read_mini (value_decode 16) p 1 [(0, 1); (0, 1)] [2] = None.
Proof. exact @twice_refuted. Qed.
Print Assumptions C109_twice_refuted.

(* An empty list inside a list, not the first of its row: the page cannot be read. *)
Theorem C109_nested_empty_refuted : exists b p, value_blocks 16 [v16 1; v16 2] = Some b /\ encode_mini nested 2 b = Some p /\ read_mini (value_decode 16) p 1 [(0, 2)] [2] = None /\
  read_layers [KItem; KList; KList] [new_unraveler nested] = Some [GValid None; GList [0; 1; 1; 2] None; GList [0; 2; 3] None].
Proof. exact @nested_empty_refuted. Qed.
Print Assumptions C109_nested_empty_refuted.

(* Nullable strings of more than 4 KiB with the layout asked for: the page cannot be read. *)
Theorem C109_long_strings_refuted : exists vals p, vals = [repeat 1%N (N.to_nat 5000); [2]%N] /\ encode_mini {| r_rep := None; r_def := Some [0; 0]; r_meaning := [NullableItem] |} 2 (binary_blocks (sums 0 vals) (concat vals)) = Some p /\
  read_mini binary_decode p 1 [(0, 1)] [1] <> None /\ read_mini binary_decode p 1 [(1, 2)] [1] = None.
Proof. exact @long_strings_refuted. Qed.
Print Assumptions C109_long_strings_refuted.
