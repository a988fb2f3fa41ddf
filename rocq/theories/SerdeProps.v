(* C09 (bytes of row-id sequences) and C10 (row-id index).
   Examples: wire_ex, wire_hyps_ex (WireProofs.v), index_ex, index_hyps_ex (SerdeProofs.v). *)
From Coq Require Import List Arith NArith ZArith Bool Permutation Sorted.
From Verif Require Import Lib RowIdsModel RowIdsSpec SerdeModel SerdeProofs WireModel WireProofs.
Import ListNotations.
Local Open Scope nat_scope.

Theorem C09_row_ids_bytes_roundtrip : forall q, seq_wf q -> Forall seg_u64 q -> fits (write_row_ids q) ->
  read_row_ids (write_row_ids q) = Some q.
Proof. exact row_ids_bytes_roundtrip. Qed.
Print Assumptions C09_row_ids_bytes_roundtrip.

Theorem C09_message_roundtrip : forall q, seq_wf q -> seq_decode (seq_encode q) = Some q.
Proof. exact seq_serde. Qed.
Print Assumptions C09_message_roundtrip.

Theorem C10_index_lookup : forall frags, Forall frag_ok frags ->
  match index_new frags with
  | IOk idx =>
      (forall f q i id, In (f, q) frags -> nth_error (seq_iter q) i = Some id ->
         index_get idx id = Some (addr_of f (N.of_nat i))) /\
      (forall id, (forall f q, In (f, q) frags -> ~ In id (seq_iter q)) -> index_get idx id = None)
  | IOverlap => True
  | IPanic => False
  end.
Proof. exact index_lookup. Qed.
Print Assumptions C10_index_lookup.

Theorem C10_index_accepts_disjoint_ranges : forall frags, Forall frag_ok frags ->
  ForallOrdPairs seg_disjoint (flat_map snd frags) -> exists idx, index_new frags = IOk idx.
Proof. exact index_new_succeeds. Qed.
Print Assumptions C10_index_accepts_disjoint_ranges.

(* limitation: distinct ids whose ranges interleave are refused, not misanswered *)
Theorem C10_interleaved_ids_refused : index_new [(1, [Arr (EU16 0 [0; 2]%N)]); (2, [Arr (EU16 1 [0; 2]%N)])]%N = IOverlap.
Proof. exact index_interleaved_refused. Qed.
Print Assumptions C10_interleaved_ids_refused.
