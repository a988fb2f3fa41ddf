(* C117, C118: blob columns and blob files. *)
From Coq Require Import List Arith NArith ZArith Bool Permutation Sorted.
From Verif Require Import Lib SchedModel SchedProofs BitsModel BlobModel BlobProofs BlobFile BlobExamples.
Import ListNotations.
Local Open Scope nat_scope.

(* any arrays in any batches, any pages, any batch sizes: read from memory.  Missing from C117: reading from a file *)
Theorem C117_memory_roundtrip_partial : forall {B} (z : B) n batches dss file i pages sizes,
  Forall (fun b => length (fst b) = n /\ Forall array_ok (fst b)) batches -> write_file z n [] batches = (dss, file) ->
  concat pages = nth i dss [] -> Forall (fun k => 0 < k) sizes -> sumn sizes <= length (nth i dss []) -> 1 <= length file ->
  exists out, read_column (buffer_io file) pages sizes = Done out /\
    map (fun b => concat (map values_of b)) out = chunks sizes (flat_map (fun b => col_values i (fst b)) batches).
Proof. exact @roundtrip_memory. Qed.
Print Assumptions C117_memory_roundtrip_partial.

(* from a file, through the coalescing scheduler, when no value of the column is null or empty *)
Theorem C117_file_roundtrip_partial : forall {B} (z : B) n batches dss file i pages sizes block_size,
  Forall (fun b => length (fst b) = n /\ Forall array_ok (fst b)) batches -> write_file z n [] batches = (dss, file) ->
  concat pages = nth i dss [] -> Forall (fun k => 0 < k) sizes -> sumn sizes <= length (nth i dss []) ->
  Forall (fun v => v <> None /\ v <> Some []) (flat_map (fun b => col_values i (fst b)) batches) ->
  exists out, read_column (file_io file block_size) pages sizes = Done out /\
    map (fun b => concat (map values_of b)) out = chunks sizes (flat_map (fun b => col_values i (fst b)) batches).
Proof. exact @roundtrip_file. Qed.
Print Assumptions C117_file_roundtrip_partial.

(* an empty value can never be read from a file *)
Theorem C117_empty_value_fails : forall {B} (z : B) k batches dss file i n block_size out,
  Forall (fun b => length (fst b) = k /\ Forall array_ok (fst b)) batches -> write_file z k [] batches = (dss, file) ->
  0 < n -> n <= length (nth i dss []) -> In (Some []) (firstn n (flat_map (fun b => col_values i (fst b)) batches)) ->
  read_column (file_io file block_size) [nth i dss []] [n] <> Done out.
Proof. exact @empty_value_fails. Qed.
Print Assumptions C117_empty_value_fails.

Theorem C117_null_panics_refuted : exists (batches : list (list (binarray nat) * list nat)) dss file,
  Forall (fun b => length (fst b) = 1 /\ Forall array_ok (fst b)) batches /\ write_file 72 1 [] batches = (dss, file) /\
  flat_map (fun b => col_values 0 (fst b)) batches = [Some [1; 2; 3]; Some [4]; None] /\
  read_column (buffer_io file) dss [2; 1] <> Panic /\
  read_column (file_io file 4096) dss [2; 1] = Panic.
Proof. exact @null_panics_refuted. Qed.
Print Assumptions C117_null_panics_refuted.

Theorem C117_empty_panics_refuted : exists (batches : list (list (binarray nat) * list nat)) dss file,
  Forall (fun b => length (fst b) = 1 /\ Forall array_ok (fst b)) batches /\ write_file 72 1 [] batches = (dss, file) /\
  flat_map (fun b => col_values 0 (fst b)) batches = [Some [1; 2; 3]; Some []] /\
  read_column (file_io file 4096) dss [2] = Panic.
Proof. exact @empty_panics_refuted. Qed.
Print Assumptions C117_empty_panics_refuted.

(* the blobs taken are files with the values of the rows, for calls that stay in the file and seek after readall; a null is an empty file.  Missing from C118: the calls below *)
Theorem C118_take_blobs_partial : forall {B} (files : N -> option (list B)) debug rows vs,
  Forall2 (fun r v => exists data, files (N.div (fst r) (2 ^ 32)) = Some data /\ 1 <= length data /\ desc_ok data (snd r) v) rows vs ->
  exists blobs, take_blobs files rows = Done blobs /\
    Forall2 (fun b v => let val := match v with Some l => l | None => [] end in
             forall l, tame val true (Some 0) l -> execs (fst b) debug (snd b) l = spec_execs val (Some 0) l) blobs vs.
Proof. exact @take_blobs_ok. Qed.
Print Assumptions C118_take_blobs_partial.

(* a blob file in any state *)
Theorem C118_file_partial : forall {B} (data : list B) debug l f fresh c, bf_position f + bf_size f <= length data ->
  agree (content data f) fresh f c -> tame (content data f) fresh c l -> execs data debug f l = spec_execs (content data f) c l.
Proof. exact @execs_ok. Qed.
Print Assumptions C118_file_partial.

Theorem C118_tell_after_read_refuted : exists (data : list nat) position size v,
  bytes_of data (position, position + size) = v /\ position + size <= length data /\
  forall debug, execs data debug (bf_new position size) [ReadAll; Tell] = [OBytes v; OPos (position + size)] /\
  spec_execs v (Some 0) [ReadAll; Tell] = [OBytes v; OPos size] /\ position <> 0.
Proof. exact @tell_after_read_refuted. Qed.
Print Assumptions C118_tell_after_read_refuted.

Theorem C118_read_after_read_refuted : exists (data : list nat) position size v,
  bytes_of data (position, position + size) = v /\ position + size <= length data /\
  spec_execs v (Some 0) [ReadAll; Read 4] = [OBytes v; OBytes []] /\
  execs data false (bf_new position size) [ReadAll; Read 4] = [OBytes v; OBytes [91; 92; 93; 94]] /\
  execs data true (bf_new position size) [ReadAll; Read 4] = [OBytes v; OPanic].
Proof. exact @read_after_read_refuted. Qed.
Print Assumptions C118_read_after_read_refuted.

Theorem C118_seek_past_end_refuted : exists (data : list nat) position size v,
  bytes_of data (position, position + size) = v /\ position + size <= length data /\
  spec_execs v (Some 0) [SeekSet 6; Read 2] = [OPos 6; OBytes []] /\
  execs data false (bf_new position size) [SeekSet 6; Read 2] = [OPos 6; OBytes [91; 92]] /\
  execs data true (bf_new position size) [SeekSet 6; Read 2] = [OPos 6; OPanic].
Proof. exact @seek_past_end_refuted. Qed.
Print Assumptions C118_seek_past_end_refuted.

Theorem C118_null_blob_refuted : exists (files : N -> option (list nat)) rows vs blobs,
  Forall2 (fun r v => exists data, files (N.div (fst r) (2 ^ 32)) = Some data /\ 1 <= length data /\ desc_ok data (snd r) v) rows vs /\
  vs = [Some [32; 33]; Some [11; 12; 13; 14]; None] /\ take_blobs files rows = Done blobs /\
  map (fun b => execs (fst b) true (snd b) [ReadAll]) blobs = [[OBytes [32; 33]]; [OBytes [11; 12; 13; 14]]; [OBytes []]].
Proof. exact @null_blob_refuted. Qed.
Print Assumptions C118_null_blob_refuted.
