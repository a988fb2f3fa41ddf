(* C108: pages of the full-zip layout. *)
From Coq Require Import List Arith NArith ZArith Bool Permutation Sorted.
From Verif Require Import Lib SerdeModel RepDefModel FullZipModel FullZipProofs FullZipRead FullZipPage FullZipVar FullZipExamples.
Import ListNotations.
Local Open Scope nat_scope.

(* The table of logarithms gives the bits that a level needs. *)
Theorem C108_bits_needed : forall v, (v < 2 ^ 32)%N -> log_2_ceil v = N.size v.
Proof. exact @log_2_ceil_size. Qed.
Print Assumptions C108_bits_needed.

(* Any ranges of rows of a page of fixed width values, in any batches, are read as they were written, with the levels of each item. Missing: the pages that page_ok excludes, refuted below. *)
Theorem C108_fixed_page_partial : forall ms hd ipr rows w rs ns, page_ok ms hd ipr rows -> 0 < w -> Forall (fun v => length v = w) (page_vals rows) ->
  (N.of_nat (sumn (map (@length N) (page_vals rows)) + 4 * length (concat rows)) < 18446744073709551616)%N ->
  Forall (fun r => fst r <= snd r <= length rows) rs -> Forall (fun n => 0 < n) ns -> sumn ns <= length (flat_map (pick rows) rs) ->
  exists z, encode_full_zip None (page_levels ms hd rows) (page_vals rows) (length rows) = Some z /\
  read_fixed z w ipr rs ns = Some (map (batch_of ms (page_nulls rows)) (groups ns (flat_map (pick rows) rs))).
Proof. exact @fixed_page. Qed.
Print Assumptions C108_fixed_page_partial.

(* Any ranges of rows of a page of variable width values, in any batches, are read as they were written. Missing: as above. *)
Theorem C108_var_page_partial : forall ms hd rows k rs ns, page_ok ms hd 1 rows -> 0 < k ->
  (N.of_nat (sumn (map (@length N) (page_vals rows))) < 2 ^ (8 * N.of_nat k))%N ->
  (N.of_nat (sumn (map (@length N) (page_vals rows)) + (4 + k) * length (concat rows)) < 18446744073709551616)%N ->
  Forall (fun r => fst r <= snd r <= length rows) rs ->
  (N.of_nat (length (concat (flat_map read_val (concat (flat_map (pick rows) rs))))) < 2 ^ (8 * N.of_nat k))%N -> sumn ns <= length (flat_map (pick rows) rs) ->
  exists z, encode_full_zip (Some k) (page_levels ms hd rows) (page_vals rows) (length rows) = Some z /\
  read_var z k rs ns = Some (map (vbatch_of ms (page_nulls rows)) (groups ns (flat_map (pick rows) rs))).
Proof. exact @var_page. Qed.
Print Assumptions C108_var_page_partial.

(* A page read whole gives back the levels that were written, if it has definition levels exactly when it has nulls. *)
Theorem C108_fixed_whole_partial : forall ms hd ipr rows w, page_ok ms hd ipr rows -> hd = page_nulls rows -> 0 < w -> Forall (fun v => length v = w) (page_vals rows) ->
  (N.of_nat (sumn (map (@length N) (page_vals rows)) + 4 * length (concat rows)) < 18446744073709551616)%N ->
  exists z o, encode_full_zip None (page_levels ms hd rows) (page_vals rows) (length rows) = Some z /\ read_fixed z w ipr [(0, length rows)] [length rows] = Some [o] /\
    batch_levels ms o = page_levels ms hd rows /\ o_vals o = page_vals rows.
Proof. exact @fixed_whole. Qed.
Print Assumptions C108_fixed_whole_partial.

(* The same for variable width values, for pages with lists and nulls. *)
Theorem C108_var_whole_partial : forall ms rows k, page_ok ms true 1 rows -> has_lists ms = true -> page_nulls rows = true -> 0 < k ->
  (N.of_nat (sumn (map (@length N) (page_vals rows))) < 2 ^ (8 * N.of_nat k))%N ->
  (N.of_nat (sumn (map (@length N) (page_vals rows)) + (4 + k) * length (concat rows)) < 18446744073709551616)%N ->
  exists z o, encode_full_zip (Some k) (page_levels ms true rows) (page_vals rows) (length rows) = Some z /\ read_var z k [(0, length rows)] [length rows] = Some [o] /\
    batch_levels ms o = page_levels ms true rows /\ o_vals o = flat_map read_val (concat rows).
Proof. exact @var_whole. Qed.
Print Assumptions C108_var_whole_partial.

(* Fixed width values with a validity and no null are read with their control words. *)
Theorem C108_fixed_no_nulls_refuted : exists l vals z o, r_rep l = None /\ r_def l = Some [0; 0; 0] /\ r_meaning l = [NullableItem] /\ vals = [[1; 1; 1]; [2; 2; 2]; [3; 3; 3]]%N /\
  encode_full_zip None l vals 3 = Some z /\ read_fixed z 3 1 [(0, 3)] [3] = Some [o] /\ o_vals o = [[0; 1; 1]; [1; 0; 2]; [2; 2; 0]]%N.
Proof. exact @fixed_no_nulls_refuted. Qed.
Print Assumptions C108_fixed_no_nulls_refuted.

(* Lists of variable width values without nulls cannot be read. *)
Theorem C108_var_no_nulls_refuted : exists l z o, l = {| r_rep := Some [1; 0; 1]; r_def := None; r_meaning := [AllValidItem; AllValidList] |} /\ encode_full_zip (Some 4) l [[1]; [2; 3]; []]%N 2 = Some z /\
  read_layers [KItem; KList] [new_unraveler l] = Some [GValid None; GList [0; 2; 3] None] /\ read_var z 4 [(0, 2)] [2] = Some [o] /\ read_layers [KItem; KList] [new_unraveler (batch_levels (z_meaning z) o)] = None.
Proof. exact @var_no_nulls_refuted. Qed.
Print Assumptions C108_var_no_nulls_refuted.

(* A null struct above a list of fixed width values panics the reader. *)
Theorem C108_fixed_struct_above_refuted : exists z, encode_full_zip None above [[1; 1; 1]; [0; 0; 0]; [2; 2; 2]]%N 4 = Some z /\ read_fixed z 3 1 [(0, 4)] [4] = None.
Proof. exact @fixed_struct_above_refuted. Qed.
Print Assumptions C108_fixed_struct_above_refuted.

(* A null struct above a list of variable width values is read as a value. *)
Theorem C108_var_struct_above_refuted : exists z o, encode_full_zip (Some 4) above [[1]; []; [2; 3]]%N 4 = Some z /\ read_var z 4 [(0, 4)] [4] = Some [o] /\ o_vals o = [[1]; []; []; [2; 3]]%N.
Proof. exact @var_struct_above_refuted. Qed.
Print Assumptions C108_var_struct_above_refuted.

(* Lists with a validity of items and no null cannot be read. *)
Theorem C108_fixed_lists_no_nulls_refuted : exists l z o, l = {| r_rep := Some [1; 0; 1]; r_def := Some [0; 0; 0]; r_meaning := [NullableItem; AllValidList] |} /\ encode_full_zip None l [[1]; [2]; [3]]%N 2 = Some z /\
  read_layers [KItem; KList] [new_unraveler l] = Some [GValid (Some [true; true; true]); GList [0; 2; 3] None] /\ read_fixed z 1 1 [(0, 2)] [2] = Some [o] /\ o_vals o = [[1]; [2]; [3]]%N /\
  read_layers [KItem; KList] [new_unraveler (batch_levels (z_meaning z) o)] = None.
Proof. exact @fixed_lists_no_nulls_refuted. Qed.
Print Assumptions C108_fixed_lists_no_nulls_refuted.

(* 256 nullable structs and no list: the writer panics. *)
Theorem C108_many_structs_refuted : encode_full_zip None {| r_rep := None; r_def := Some [256; 0]; r_meaning := repeat NullableItem 256 |} [[1]; [2]]%N 2 = None.
Proof. exact @many_structs_refuted. Qed.
Print Assumptions C108_many_structs_refuted.
