(* C130: files of format 2 can be opened and say where everything is. *)
From Coq Require Import List Arith NArith ZArith Bool Permutation Sorted.
From Verif Require Import Lib PageModel SerdeModel File2Model File2Proofs File2Data File2Whole.
Import ListNotations.
Local Open Scope nat_scope.

(* missing from C130: the buffers of columns and the external buffers handed over at the end, for which it is false *)
Theorem C130_file_partial : forall enc_col dec_col, (forall c, dec_col (enc_col c) = Some c) -> forall v21 ncols os fs desc file block, 40 <= block -> write_file enc_col v21 ncols os fs desc = Some file -> within file os ncols ->
  Forall (kind_ok v21) (all_pages os fs) -> (v21 = true -> Forall (fun f => fw_external f = []) fs) ->
  exists o, open_file dec_col block file = Some o /\ describes file os fs desc ncols o /\ op_version o = if v21 then F21 else F20.
Proof. exact @file_exact. Qed.
Print Assumptions C130_file_partial.

(* when all but the last buffer of a column have a multiple of 64 bytes *)
Theorem C130_column_buffers_partial : forall enc_col dec_col, (forall c, dec_col (enc_col c) = Some c) -> forall v21 ncols os fs desc file block o k c f, 40 <= block -> write_file enc_col v21 ncols os fs desc = Some file -> within file os ncols ->
  Forall (kind_ok v21) (all_pages os fs) -> (v21 = true -> Forall (fun f => fw_external f = []) fs) -> open_file dec_col block file = Some o ->
  nth_error (op_cols o) k = Some c -> nth_error (all_cols fs) k = Some f -> tight (fc_bufs f) -> length (cm_offs c) = length (fc_bufs f) /\ length (cm_sizes c) = length (fc_bufs f) /\ Forall2 (holds file) (combine (cm_offs c) (cm_sizes c)) (fc_bufs f).
Proof. exact @column_buffers_exact. Qed.
Print Assumptions C130_column_buffers_partial.

Theorem C130_external : forall bufs w w', step w (OExternal bufs) = Some w' -> Forall2 (holds (w_out w')) (given (w_out w) bufs) bufs.
Proof. exact @external_exact. Qed.
Print Assumptions C130_external.

Theorem C130_writes : forall enc_col v21 ncols os fs desc, Forall (fun p => ep_col p < ncols) (all_pages os fs) -> length (all_cols fs) = ncols -> exists file, write_file enc_col v21 ncols os fs desc = Some file.
Proof. exact @file_writes. Qed.
Print Assumptions C130_writes.

Theorem C130_batch : forall enc_col dec_col, (forall c, dec_col (enc_col c) = Some c) -> forall data cols desc, cols_ok F20 cols = true -> (N.of_nat (length cols) < 2 ^ 28)%N -> (N.of_nat (length (concat_footer enc_col data cols desc)) < 2 ^ 64)%N ->
  match desc with
  | Some d => read_self_described dec_col (concat_footer enc_col data cols desc) = Some (d, cols)
  | None => read_mini dec_col (concat_footer enc_col data cols desc) = Some cols
  end /\ forall q b, holds data q b -> holds (concat_footer enc_col data cols desc) q b.
Proof. exact @batch_exact. Qed.
Print Assumptions C130_batch.

Theorem C130_column_buffers_refuted : exists ncols fs f k c, forall enc_col dec_col desc block, (forall c, dec_col (enc_col c) = Some c) -> (N.of_nat (length (enc_col c)) + N.of_nat (length desc) < 2 ^ 63)%N -> 40 <= block ->
  exists file o, write_file enc_col false ncols [] fs desc = Some file /\ open_file dec_col block file = Some o /\ nth_error (all_cols fs) k = Some f /\ nth_error (op_cols o) k = Some c /\
  fc_bufs f = [[1]; [2]]%N /\ map (bytes_of file) (combine (cm_offs c) (cm_sizes c)) = [Some [1]; Some [72]]%N.
Proof. exact @column_buffers_refuted. Qed.
Print Assumptions C130_column_buffers_refuted.

Theorem C130_finish_external_refuted : exists fs bufs, flat_map fw_external fs = bufs /\ bufs = [[1]; [2]]%N /\ forall enc_col desc, desc = repeat 9%N 70 ->
  exists file, write_file enc_col false 0 [] fs desc = Some file /\ map (bytes_of file) (given [] bufs) = [Some [1]; Some [9]]%N.
Proof. exact @finish_external_refuted. Qed.
Print Assumptions C130_finish_external_refuted.

Theorem C130_finish_external_21_refuted : exists fs, forall enc_col dec_col desc block, (N.of_nat (length desc) < 2 ^ 63)%N -> 40 <= block ->
  exists file, write_file enc_col true 0 [] fs desc = Some file /\ open_file dec_col block file = None.
Proof. exact @finish_external_21_refuted. Qed.
Print Assumptions C130_finish_external_21_refuted.

Theorem C130_batch_21_refuted : exists cols, cols_ok F21 cols = true /\ forall enc_col dec_col data d, (forall c, dec_col (enc_col c) = Some c) ->
  (N.of_nat (length (concat_footer enc_col data cols (Some d))) < 2 ^ 64)%N -> read_mini dec_col (concat_footer enc_col data cols None) = None /\ read_self_described dec_col (concat_footer enc_col data cols (Some d)) = None.
Proof. exact @batch_21_refuted. Qed.
Print Assumptions C130_batch_21_refuted.
