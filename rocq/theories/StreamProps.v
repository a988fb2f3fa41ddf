(* C25: row ids, row addresses and deletions attached to decoded batches.
   Examples: read_ex, read_stable_ex. *)
From Coq Require Import List Arith NArith ZArith Bool Permutation Sorted.
From Verif Require Import Lib RowIdsModel RowIdsSpec SerdeModel ReadParamsModel ReadParamsProofs TreeMapModel DeletionModel StreamModel StreamProofs.
Import ListNotations.
Local Open Scope nat_scope.

Theorem C25_read_by_address : forall {A} (batches : list (list A)) frag c total,
  let offs := to_offsets_total (c_params c) total in
  (frag < two32)%N -> (N.of_nat total < two32)%N -> (forall a b, c_params c = PRange a b -> a <= b) ->
  (forall o, In o offs -> o < total) -> length (concat batches) = length offs -> c_seq c = None ->
  exists rows, wrap_batches batches 0 frag c = Ok rows /\
    (c_null c = false -> rows = expected_rows c frag None offs (concat batches)) /\
    (c_with_id c || c_with_addr c = true -> filter marked_live rows = expected_rows c frag None offs (concat batches)).
Proof. exact @read_by_address. Qed.
Print Assumptions C25_read_by_address.

(* only requests that start at the first row and are contiguous; the general claim is refuted below *)
Theorem C25_stable_ids_partial : forall {A} (batches : list (list A)) frag c total q,
  let offs := to_offsets_total (c_params c) total in
  (frag < two32)%N -> (N.of_nat total < two32)%N -> (forall a b, c_params c = PRange a b -> a <= b) ->
  (forall o, In o offs -> o < total) -> length (concat batches) = length offs ->
  c_seq c = Some q -> seq_wf q -> length (seq_iter q) = total -> is_prefix (c_params c) ->
  exists rows, wrap_batches batches 0 frag c = Ok rows /\
    (c_null c = false -> rows = expected_rows c frag (Some (seq_iter q)) offs (concat batches)) /\
    (c_with_id c || c_with_addr c = true -> filter marked_live rows = expected_rows c frag (Some (seq_iter q)) offs (concat batches)).
Proof. exact @read_stable_prefix. Qed.
Print Assumptions C25_stable_ids_partial.

Theorem C25_stable_ids_range_refuted : exists (q : rowseq) (c : rid_config) rows,
  seq_wf q /\ seq_iter q = [100; 101; 102; 103]%N /\ c_seq c = Some q /\ c_params c = PRange 2 4 /\ c_with_id c = true /\
  wrap_batches [[7; 8]] 0 5 c = Ok rows /\ rows <> expected_rows c 5 (Some (seq_iter q)) [2; 3] [7; 8] /\
  map o_id rows = [CVal 100; CVal 101]%N.
Proof. exact stable_ids_range_refuted. Qed.
Print Assumptions C25_stable_ids_range_refuted.

Theorem C25_stable_ids_take_refuted : exists (q : rowseq) (c : rid_config) rows,
  seq_wf q /\ seq_iter q = [100; 101; 102; 103]%N /\ c_seq c = Some q /\ c_params c = PIdx [3; 1] /\ c_with_id c = true /\
  wrap_batches [[8; 6]] 0 5 c = Ok rows /\ rows <> expected_rows c 5 (Some (seq_iter q)) [3; 1] [8; 6].
Proof. exact stable_ids_take_refuted. Qed.
Print Assumptions C25_stable_ids_take_refuted.
