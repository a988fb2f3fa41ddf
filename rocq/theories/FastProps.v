(* C123 and C124: bit packing of integers, and pages of them. *)
From Coq Require Import List Arith NArith ZArith Bool Permutation Sorted.
From Verif Require Import Lib SerdeModel SerdeProofs RepDefModel FullZipModel FullZipProofs FullZipRead FullZipPage FullZipVar FullZipExamples MiniModel MiniProofs MiniSched MiniBytes MiniPage MiniRead MiniString MiniExamples FastModel FastProofs FastChunk FastExamples.
Import ListNotations.
Local Open Scope nat_scope.

(* for words of 8, 16, 32 and 64 bits and every width; nothing depends on what the arrays held before *)
Theorem C123_pack_unpack : forall t w input packed out, word_bits t -> 0 < w <= t -> length input = 1024 -> Forall (fun x => (x < 2 ^ N.of_nat w)%N) input -> length packed = 1024 * w / t -> length out = 1024 ->
  exists p, fl_pack t w input packed = Some p /\ length p = 1024 * w / t /\ Forall (fun v => (v < 2 ^ N.of_nat t)%N) p /\ fl_unpack t w p out = Some input.
Proof. exact @pack_unpack. Qed.
Print Assumptions C123_pack_unpack.

(* wider values keep their lower bits *)
Theorem C123_low_bits : forall t w input packed out, word_bits t -> 0 < w <= t -> length input = 1024 -> Forall (fun x => (x < 2 ^ N.of_nat t)%N) input -> length packed = 1024 * w / t -> length out = 1024 ->
  exists p, fl_pack t w input packed = Some p /\ length p = 1024 * w / t /\ Forall (fun v => (v < 2 ^ N.of_nat t)%N) p /\ fl_unpack t w p out = Some (map (fun x => x mod 2 ^ N.of_nat w)%N input).
Proof. exact @pack_unpack_mod. Qed.
Print Assumptions C123_low_bits.

(* the layout of files: bit b of the value 16 * order[o] + 128 * s + l is the bit (8 * o + s) * w + b of lane l, whose words are 1024 / t apart *)
Theorem C123_layout : forall t w input packed, word_bits t -> 0 < w <= t -> length input = 1024 -> Forall (fun x => (x < 2 ^ N.of_nat t)%N) input -> length packed = 1024 * w / t ->
  exists p, fl_pack t w input packed = Some p /\ length p = 1024 * w / t /\
    forall o s l b, 8 * o + s < t -> s < 8 -> l < 1024 / t -> b < w ->
      N.testbit (nth ((1024 / t) * (((8 * o + s) * w + b) / t) + l) p 0%N) (N.of_nat (((8 * o + s) * w + b) mod t)) = N.testbit (nth (16 * nth o [0; 4; 2; 6; 1; 5; 3; 7] 0 + 128 * s + l) input 0%N) (N.of_nat b).
Proof. exact @pack_layout. Qed.
Print Assumptions C123_layout.

Theorem C123_width_least : forall c w, chunk_width c <= w <-> Forall (fun x => (x < 2 ^ N.of_nat w)%N) c.
Proof. exact @width_least. Qed.
Print Assumptions C123_width_least.

(* also for a last chunk, whatever number of values is asked for *)
Theorem C123_chunk : forall k w input mem, bp k -> 0 < w <= 8 * k -> length input = 1024 -> Forall (fun x => (x < 2 ^ N.of_nat w)%N) input ->
  exists ws, pack_chunk (8 * k) w input mem = Some ws /\ length ws * k = k + 128 * w /\ forall n, n <= 1024 -> bitpack_decode k (flat_map (le_bytes k) ws) n = Some (map (le_bytes k) input).
Proof. exact @chunk_round. Qed.
Print Assumptions C123_chunk.

(* whichever compressor is chosen *)
Theorem C124_flat : forall ms hd ipr rows k mem rs ns, mini_ok ms hd ipr rows -> has_lists ms = false -> 0 < k -> (N.of_nat (2 * k) < 8186)%N -> bytes_ok k (page_vals rows) ->
  sorted 0 (length rows) rs -> Forall (fun n => 0 < n) ns -> sumn ns <= length (flat_map (pick rows) rs) ->
  exists c b p, fixed_blocks k (page_vals rows) mem = Some (c, b) /\ encode_mini (page_levels ms hd rows) (length (page_vals rows)) b = Some p /\
    read_mini (fixed_decode k c) p ipr rs ns = Some (map (batch_of ms hd) (groups ns (flat_map (pick rows) rs))).
Proof. exact @fixed_flat. Qed.
Print Assumptions C124_flat.

(* missing from C124: runs of zeros in lists, more lists without values, and single rows after long ones, for which it is false *)
Theorem C124_packed_lists_scan_partial : forall ms hd rows k mem ns, mini_ok ms hd 1 rows -> bp k -> bytes_ok k (page_vals rows) -> page_vals rows <> [] -> no_zero_run (page_vals rows) -> length (concat rows) <= length (page_vals rows) + 1000 ->
  Forall (fun n => 0 < n) ns -> sumn ns = length rows ->
  exists b p, fixed_blocks k (page_vals rows) mem = Some (true, b) /\ encode_mini (page_levels ms hd rows) (length (page_vals rows)) b = Some p /\
    read_mini (fixed_decode k true) p 1 [(0, length rows)] ns = Some (map (batch_of ms hd) (groups ns rows)).
Proof. exact @packed_lists_scan. Qed.
Print Assumptions C124_packed_lists_scan_partial.

Theorem C124_packed_lists_ranges_partial : forall ms hd rows k mem rs ns, mini_ok ms hd 1 rows -> bp k -> bytes_ok k (page_vals rows) -> page_vals rows <> [] -> no_zero_run (page_vals rows) -> length (concat rows) <= length (page_vals rows) + 1000 ->
  Forall (fun r => length r <= 1024) rows -> sorted 0 (length rows) rs -> Forall (fun n => 0 < n) ns -> sumn ns <= length (flat_map (pick rows) rs) ->
  exists b p, fixed_blocks k (page_vals rows) mem = Some (true, b) /\ encode_mini (page_levels ms hd rows) (length (page_vals rows)) b = Some p /\
    read_mini (fixed_decode k true) p 1 rs ns = Some (map (batch_of ms hd) (groups ns (flat_map (pick rows) rs))).
Proof. exact @packed_lists_ranges. Qed.
Print Assumptions C124_packed_lists_ranges_partial.

Theorem C124_zero_lists_refuted : exists b, mini_ok ms_plain false 1 (ones_of 0) /\ bytes_ok 8 (page_vals (ones_of 0)) /\ fixed_blocks 8 (page_vals (ones_of 0)) no_mem = Some (false, b) /\
  encode_mini (page_levels ms_plain false (ones_of 0)) (length (page_vals (ones_of 0))) b = None.
Proof. exact @zero_lists_refuted. Qed.
Print Assumptions C124_zero_lists_refuted.

Theorem C124_empty_lists_refuted : exists rows b, mini_ok [AllValidItem; EmptyableList] true 1 rows /\ page_vals rows = [le_bytes 4 7%N] /\ fixed_blocks 4 (page_vals rows) no_mem = Some (true, b) /\ encode_mini (page_levels [AllValidItem; EmptyableList] true rows) 1 b = None.
Proof. exact @packed_empty_refuted. Qed.
Print Assumptions C124_empty_lists_refuted.

Theorem C124_long_row_refuted : exists b p, fixed_blocks 2 (page_vals ex_long_ints) no_mem = Some (true, b) /\ encode_mini (page_levels ms_plain false ex_long_ints) (length (page_vals ex_long_ints)) b = Some p /\ read_mini (fixed_decode 2 true) p 1 [(1, 2)] [1] = None.
Proof. exact @packed_long_row_refuted. Qed.
Print Assumptions C124_long_row_refuted.
