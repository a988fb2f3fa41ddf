(* Cases of the theorems about blob columns, and the witnesses of what fails. *)
From Coq Require Import List Arith NArith Lia Bool.
From Verif Require Import Lib SchedModel SchedProofs BitsModel BlobModel BlobProofs BlobFile.
Import ListNotations.

(* two batches of two blob columns; column 1 has a null and an empty value, its
   first array is a slice of a longer one *)
Definition ex_batches : list (list (binarray nat) * list nat) :=
  [([Build_binarray [0; 2; 5] [11; 12; 13; 14; 15] None; Build_binarray [1; 3; 3] [9; 21; 22; 9] (Some [true; true])], [7; 7; 7]);
   ([Build_binarray [0; 1] [16] None; Build_binarray [0; 0] [] (Some [false])], [8])].
Example ex_batches_ok : Forall (fun b => length (fst b) = 2 /\ Forall array_ok (fst b)) ex_batches.
Proof. unfold array_ok. repeat constructor; cbn; lia. Qed.
Example ex_written : fst (write_file 72 2 [] ex_batches) = [[(0, 2); (64, 3); (195, 1)]; [(128, 2); (0, 0); (1, 0)]] /\
  length (snd (write_file 72 2 [] ex_batches)) = 260.
Proof. vm_compute. auto. Qed.
Definition ex_file : list nat := snd (write_file 72 2 [] ex_batches).
(* column 0 from the file, in pages of two and one rows and batches of one and two *)
Example ex_read_file : omap (map (fun b => concat (map values_of b)))
  (match read_column (file_io ex_file 16) [[(0, 2); (64, 3)]; [(195, 1)]] [1; 2] with Done x => Some x | _ => None end) =
  Some [[Some [11; 12]]; [Some [13; 14; 15]; Some [16]]].
Proof. vm_compute. reflexivity. Qed.
(* column 1 from memory *)
Example ex_read_memory : omap (map (fun b => concat (map values_of b)))
  (match read_column (buffer_io ex_file) [[(128, 2); (0, 0); (1, 0)]] [2; 1] with Done x => Some x | _ => None end) =
  Some [[Some [21; 22]; Some []]; [None]].
Proof. vm_compute. reflexivity. Qed.
Example ex_empty_hyps : In (Some []) (firstn 2 (flat_map (fun b : list (binarray nat) * list nat => col_values 1 (fst b)) ex_batches)).
Proof. vm_compute. auto. Qed.
(* but not from the file: the null comes back, with the blob before it, as a panic *)
Lemma null_panics_refuted : exists (batches : list (list (binarray nat) * list nat)) dss file,
  Forall (fun b => length (fst b) = 1 /\ Forall array_ok (fst b)) batches /\ write_file 72 1 [] batches = (dss, file) /\
  flat_map (fun b => col_values 0 (fst b)) batches = [Some [1; 2; 3]; Some [4]; None] /\
  read_column (buffer_io file) dss [2; 1] <> Panic /\
  read_column (file_io file 4096) dss [2; 1] = Panic.
Proof.
  exists [([Build_binarray [0; 3; 4; 4] [1; 2; 3; 4] (Some [true; true; false])], [])].
  eexists _, _. split; [unfold array_ok; repeat constructor; cbn; lia|]. split; [reflexivity|]. split; [reflexivity|].
  split; [vm_compute; discriminate|vm_compute; reflexivity].
Qed.
Lemma empty_panics_refuted : exists (batches : list (list (binarray nat) * list nat)) dss file,
  Forall (fun b => length (fst b) = 1 /\ Forall array_ok (fst b)) batches /\ write_file 72 1 [] batches = (dss, file) /\
  flat_map (fun b => col_values 0 (fst b)) batches = [Some [1; 2; 3]; Some []] /\
  read_column (file_io file 4096) dss [2] = Panic.
Proof.
  exists [([Build_binarray [0; 3; 3] [1; 2; 3] None], [])].
  eexists _, _. split; [unfold array_ok; repeat constructor; cbn; lia|]. split; [reflexivity|]. split; [reflexivity|]. vm_compute; reflexivity.
Qed.

(* ---- BlobFile ---- *)
Definition ex_ops : list op := [Read 2; Tell; SeekCur 1; Read 9; Tell; SeekSet 1; ReadAll; ReadAll; SeekEnd; Tell; SeekSet 0; Read 1; Close; Tell; Read 3].
Example ex_tame : tame [11; 12; 13; 14] true (Some 0) ex_ops.
Proof. vm_compute. repeat split; lia. Qed.
Example ex_spec : spec_execs [11; 12; 13; 14] (Some 0) ex_ops =
  [OBytes [11; 12]; OPos 2; OPos 3; OBytes [14]; OPos 4; OPos 1; OBytes [12; 13; 14]; OBytes []; OPos 4; OPos 4; OPos 0; OBytes [11]; OUnit; OErr; OErr].
Proof. reflexivity. Qed.
Definition ex_data : list nat := [0; 0; 11; 12; 13; 14; 0; 0; 91; 92; 93; 94].
Example ex_exec : execs ex_data true (bf_new 2 4) ex_ops = spec_execs [11; 12; 13; 14] (Some 0) ex_ops.
Proof. reflexivity. Qed.
(* after ReadAll the cursor is the end in the data file, not in the blob *)
Lemma tell_after_read_refuted : exists (data : list nat) position size v,
  bytes_of data (position, position + size) = v /\ position + size <= length data /\
  forall debug, execs data debug (bf_new position size) [ReadAll; Tell] = [OBytes v; OPos (position + size)] /\
  spec_execs v (Some 0) [ReadAll; Tell] = [OBytes v; OPos size] /\ position <> 0.
Proof. exists ex_data, 2, 4, [11; 12; 13; 14]. repeat split; cbn; lia. Qed.
(* so a read after it returns bytes that are not the blob's, or panics *)
Lemma read_after_read_refuted : exists (data : list nat) position size v,
  bytes_of data (position, position + size) = v /\ position + size <= length data /\
  spec_execs v (Some 0) [ReadAll; Read 4] = [OBytes v; OBytes []] /\
  execs data false (bf_new position size) [ReadAll; Read 4] = [OBytes v; OBytes [91; 92; 93; 94]] /\
  execs data true (bf_new position size) [ReadAll; Read 4] = [OBytes v; OPanic].
Proof. exists ex_data, 2, 4, [11; 12; 13; 14]. repeat split; cbn; lia. Qed.
(* a seek past the end is allowed; a read there does the same *)
Lemma seek_past_end_refuted : exists (data : list nat) position size v,
  bytes_of data (position, position + size) = v /\ position + size <= length data /\
  spec_execs v (Some 0) [SeekSet 6; Read 2] = [OPos 6; OBytes []] /\
  execs data false (bf_new position size) [SeekSet 6; Read 2] = [OPos 6; OBytes [91; 92]] /\
  execs data true (bf_new position size) [SeekSet 6; Read 2] = [OPos 6; OPanic].
Proof. exists ex_data, 2, 4, [11; 12; 13; 14]. repeat split; cbn; lia. Qed.
(* take_blobs: three rows of two fragments; the null is an empty file *)
Definition ex_files (f : N) : option (list nat) := if N.eqb f 0 then Some ex_data else if N.eqb f 3 then Some [31; 32; 33] else None.
Definition ex_rows : list (N * (nat * nat)) := [((3 * 2 ^ 32 + 5)%N, (1, 2)); (0%N, (2, 4)); (1%N, (1, 0))].
Example ex_take_hyps : Forall2 (fun r v => exists data, ex_files (N.div (fst r) (2 ^ 32)) = Some data /\ 1 <= length data /\ desc_ok data (snd r) v)
  ex_rows [Some [32; 33]; Some [11; 12; 13; 14]; None].
Proof. repeat constructor; eexists; split; try reflexivity; cbn; repeat split; try lia; reflexivity. Qed.
Lemma null_blob_refuted : exists (files : N -> option (list nat)) rows vs blobs,
  Forall2 (fun r v => exists data, files (N.div (fst r) (2 ^ 32)) = Some data /\ 1 <= length data /\ desc_ok data (snd r) v) rows vs /\
  vs = [Some [32; 33]; Some [11; 12; 13; 14]; None] /\ take_blobs files rows = Done blobs /\
  map (fun b => execs (fst b) true (snd b) [ReadAll]) blobs = [[OBytes [32; 33]]; [OBytes [11; 12; 13; 14]]; [OBytes []]].
Proof. exists ex_files, ex_rows, [Some [32; 33]; Some [11; 12; 13; 14]; None]. eexists. split; [exact ex_take_hyps|]. split; [reflexivity|]. split; reflexivity. Qed.
