(* C104: strings of file format 2.0. *)
From Coq Require Import List Arith NArith ZArith Bool Permutation Sorted.
From Verif Require Import Lib PageModel PageProofs ListEncModel ListEncProofs ListEncRead BinEncModel BinEncProofs.
Import ListNotations.
Local Open Scope nat_scope.

(* A page holds the lengths, the validity and the bytes of the strings it was given. *)
Theorem C104_to_block_ok : forall arrs, Forall array_ok arrs -> exists rows, bpage_ok (bin_encode (to_block arrs)) rows /\ chop rows (bp_bytes (bin_encode (to_block arrs))) = strings_of arrs /\ length rows = length (strings_of arrs).
Proof. exact @to_block_ok. Qed.
Print Assumptions C104_to_block_ok.

(* Ranges of rows of a page, in any order, of which only the first starts with row 0, give exactly their strings. Missing: further ranges that start with row 0, refuted below. *)
Theorem C104_strings_exact_partial : forall arrs rs skip n, Forall array_ok arrs -> page_ranges rs (length (strings_of arrs)) -> skip + n <= length (wanted (strings_of arrs) rs) ->
  exists d, bin_load (bin_encode (to_block arrs)) rs = Some d /\ array_ok (bin_decode d skip n) /\ lists_of (bin_decode d skip n) = slice skip (skip + n) (wanted (strings_of arrs) rs).
Proof. exact @strings_exact. Qed.
Print Assumptions C104_strings_exact_partial.

(* The ranges given to the pages of a column satisfy this condition when the ranges asked for are in order. *)
Theorem C104_scheduled_page_ranges : forall A (pages : list (list A)) rs, ordered rs (length (concat pages)) ->
  exists jobs, schedule 0 (page_schedulers pages) rs = Some jobs /\ Forall (fun j => page_ranges (snd j) (length (fst j))) jobs /\
    flat_map (fun j => wanted (fst j) (snd j)) jobs = wanted (concat pages) rs.
Proof. exact @scheduled_page_ranges. Qed.
Print Assumptions C104_scheduled_page_ranges.

(* Hence a column of strings is read exactly for ranges in order. *)
Theorem C104_strings_column_exact : forall groups rs, Forall (Forall array_ok) groups -> ordered rs (length (strings_of (concat groups))) ->
  exists jobs, schedule 0 (page_schedulers (map strings_of groups)) rs = Some jobs /\
    Forall (fun j => exists g d, In g groups /\ strings_of g = fst j /\ bin_load (bin_encode (to_block g)) (snd j) = Some d /\
      lists_of (bin_decode d 0 (length (wanted (fst j) (snd j)))) = wanted (fst j) (snd j)) jobs /\
    flat_map (fun j => wanted (fst j) (snd j)) jobs = wanted (strings_of (concat groups)) rs.
Proof. exact @strings_column_exact. Qed.
Print Assumptions C104_strings_column_exact.

(* Row 0 of a page asked for twice loses the strings that follow. *)
Theorem C104_strings_duplicate_refuted : exists arrs rs d, Forall array_ok arrs /\ Forall (fun r => fst r < snd r /\ snd r <= length (strings_of arrs)) rs /\ ascending rs (length (strings_of arrs)) /\
  wanted (strings_of arrs) rs = [Some [97]; Some [97]; Some [98; 99]] /\ bin_load (bin_encode (to_block arrs)) rs = Some d /\
  lists_of (bin_decode d 0 3) = [Some [97]; Some []; Some []].
Proof. exact @strings_duplicate_refuted. Qed.
Print Assumptions C104_strings_duplicate_refuted.
