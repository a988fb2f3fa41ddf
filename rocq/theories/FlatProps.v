(* C125: pages of fixed width values, booleans and fixed size lists in format 2.0. *)
From Coq Require Import List Arith NArith ZArith Bool Permutation Sorted.
From Verif Require Import Lib PageModel FlatModel FlatProofs FlatPage FlatExamples.
Import ListNotations.
Local Open Scope nat_scope.

(* any range of rows, in any batches *)
Theorem C125_scan : forall t arrays s e ns, t_ok t -> Forall (f_wf t) arrays -> s < e -> e <= page_rows t arrays -> sumn ns = e - s ->
  read_batches t arrays [(s, e)] 0 ns = Some (slice s e (flat_map (logical t) arrays)).
Proof. exact @scan_exact. Qed.
Print Assumptions C125_scan.

(* any rows in any order, with repeats, in any batches *)
Theorem C125_take : forall t arrays idx ns, t_ok t -> Forall (f_wf t) arrays -> 0 < page_rows t arrays -> Forall (fun i => i < page_rows t arrays) idx -> sumn ns = length idx ->
  read_batches t arrays (map (fun i => (i, S i)) idx) 0 ns = Some (map (fun i => nth i (flat_map (logical t) arrays) VNull) idx).
Proof. exact @take_exact. Qed.
Print Assumptions C125_take.

(* pages without validity and without booleans: any ranges, in any batches *)
Theorem C125_bytes : forall t arrays rs ns, t_ok t -> Forall (f_wf t) arrays -> 0 < page_rows t arrays -> no_bits t arrays -> ranges_in (page_rows t arrays) rs -> sumn ns = rows_of rs ->
  read_batches t arrays rs 0 ns = Some (flat_map (fun r => slice (fst r) (snd r) (flat_map (logical t) arrays)) rs).
Proof. exact @bytes_exact. Qed.
Print Assumptions C125_bytes.

(* any ranges in one batch *)
Theorem C125_whole : forall t arrays rs, t_ok t -> Forall (f_wf t) arrays -> 0 < page_rows t arrays -> ranges_in (page_rows t arrays) rs ->
  read_rows t arrays rs 0 (rows_of rs) = Some (flat_map (fun r => slice (fst r) (snd r) (flat_map (logical t) arrays)) rs).
Proof. exact @whole_exact. Qed.
Print Assumptions C125_whole.

(* missing from C125: a batch that starts inside a range and goes past its end, for which it is false when there is a bitmap *)
Theorem C125_rows_partial : forall t arrays rs skip n, t_ok t -> Forall (f_wf t) arrays -> 0 < page_rows t arrays -> ranges_in (page_rows t arrays) rs -> skip + n <= rows_of rs ->
  aligned rs skip n \/ no_bits t arrays -> read_rows t arrays rs skip n = Some (firstn n (skipn skip (flat_map (fun r => slice (fst r) (snd r) (flat_map (logical t) arrays)) rs))).
Proof. exact @read_exact. Qed.
Print Assumptions C125_rows_partial.

Theorem C125_bool_batch_refuted : exists t arrays rs skip n got,
  t_ok t /\ Forall (f_wf t) arrays /\ 0 < page_rows t arrays /\ ranges_in (page_rows t arrays) rs /\ skip + n <= rows_of rs /\
  firstn n (skipn skip (flat_map (fun r => slice (fst r) (snd r) (flat_map (logical t) arrays)) rs)) = repeat (VBool true) 4 /\
  read_rows t arrays rs skip n = Some got /\ got = [VBool true; VBool true; VBool false; VBool false].
Proof. exact @bool_batch_refuted. Qed.
Print Assumptions C125_bool_batch_refuted.

Theorem C125_null_batch_refuted : exists t arrays rs skip n,
  t_ok t /\ Forall (f_wf t) arrays /\ 0 < page_rows t arrays /\ ranges_in (page_rows t arrays) rs /\ skip + n <= rows_of rs /\
  firstn n (skipn skip (flat_map (fun r => slice (fst r) (snd r) (flat_map (logical t) arrays)) rs)) = [VBytes [2]; VBytes [3]; VBytes [8]; VBytes [9]]%N /\
  read_rows t arrays rs skip n = Some [VBytes [2]; VBytes [3]; VNull; VNull]%N.
Proof. exact @null_batch_refuted. Qed.
Print Assumptions C125_null_batch_refuted.

Theorem C125_out_of_bounds_refuted : exists t arrays rs skip n,
  t_ok t /\ Forall (f_wf t) arrays /\ 0 < page_rows t arrays /\ ranges_in (page_rows t arrays) rs /\ skip + n <= rows_of rs /\ read_rows t arrays rs skip n = None.
Proof. exact @bool_panic_refuted. Qed.
Print Assumptions C125_out_of_bounds_refuted.

Theorem C125_empty_lists_refuted : exists t arrays p, Forall (f_wf t) arrays /\ 0 < page_rows t arrays /\ write_page t arrays = Some p /\ read_rows t arrays [(0, 1)] 0 1 = None.
Proof. exact @fsl_zero_refuted. Qed.
Print Assumptions C125_empty_lists_refuted.
