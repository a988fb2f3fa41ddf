(* C27, C65, C66: taking rows, filtering deleted addresses. *)
From Coq Require Import List Arith NArith ZArith Bool Permutation Sorted.
From Verif Require Import Lib AMap RowIdsModel RowIdsSpec SerdeModel ReadParamsModel TreeMapModel DeletionModel StreamModel TakeModel TakeProofs TakeOffsets FilterProofs.
Import ListNotations.
Local Open Scope N_scope.

(* in-range offsets give the surviving rows at those positions, in request order *)
Theorem C27_take_by_offset : forall {A} batching (fs : list (frag A)) p offsets, (forall l, concat (batching l) = l) -> ds_wf fs ->
  sorts p offsets -> (forall o, In o offsets -> o < N.of_nat (length (live_rows fs))) ->
  exists out, take batching fs p offsets = Ok out /\ map Some out = map (fun o => nth_error (live_rows fs) (N.to_nat o)) offsets.
Proof. exact @take_spec. Qed.
Print Assumptions C27_take_by_offset.

Theorem C27_take_by_address : forall {A} batching (fs : list (frag A)) l, (forall l, concat (batching l) = l) -> ds_wf fs ->
  Forall (addr_ok fs) l ->
  do_take_rows batching fs l = Ok (flat_map (fun a => opt_list (row_at fs a)) l).
Proof. exact @take_addresses_spec. Qed.
Print Assumptions C27_take_by_address.

Theorem C27_take_with_address : forall {A} batching (fs : list (frag A)) l, (forall l, concat (batching l) = l) -> ds_wf fs ->
  Forall (addr_ok fs) l ->
  do_take_with_addr batching fs l =
    if forallb (fun a => match row_at fs a with Some _ => true | None => false end) l
    then Ok (flat_map (fun a => map (fun v => (v, a)) (opt_list (row_at fs a))) l) else Err.
Proof. exact @take_with_addr_spec. Qed.
Print Assumptions C27_take_with_address.

Theorem C27_out_of_range_refuted :
  ds_wf two_rows /\ sorts [0; 1]%nat [0; 100] /\ sorts [1; 0]%nat [100; 0] /\ sorts [0; 1]%nat [100; 100] /\
  take one_batch two_rows [0; 1]%nat [0; 100] = Err /\
  take one_batch two_rows [1; 0]%nat [100; 0] = Ok [10]%nat /\
  take one_batch two_rows [0; 1]%nat [100; 100] = Panic.
Proof. exact @take_out_of_range_refuted. Qed.
Print Assumptions C27_out_of_range_refuted.

(* missing: repeated addresses and fragments past the last one (refuted below) *)
Theorem C65_filter_deleted_addresses_partial : forall {A} (fs : list (frag A)) p addrs, sinc (map fr_id fs) -> (forall f, In f fs -> frag_wf f) ->
  sorts p addrs -> NoDup addrs -> (forall a, In a addrs -> a < two64 /\ exists f, In f fs /\ a / two32 <= fr_id f) ->
  filter_deleted_addresses fs p addrs = Some (filter (survives fs) addrs).
Proof. exact @filter_deleted_addresses_spec. Qed.
Print Assumptions C65_filter_deleted_addresses_partial.

Theorem C65_survives_is_readable : forall {A} (fs : list (frag A)) a, ds_wf fs -> addr_ok fs a -> (survives fs a = true <-> exists v, row_at fs a = Some v).
Proof. exact @survives_row. Qed.
Print Assumptions C65_survives_is_readable.

Theorem C65_filter_addresses_refuted :
  sinc (map fr_id del_frag) /\ (forall f, In f del_frag -> frag_wf f) /\
  sorts [0; 1]%nat [1; 1] /\ filter_deleted_addresses del_frag [0; 1]%nat [1; 1] = Some [1] /\ row_at del_frag 1 = None /\
  sorts [0; 1]%nat [0; 5 * two32] /\ filter_deleted_addresses del_frag [0; 1]%nat [0; 5 * two32] = None.
Proof. exact @filter_addresses_refuted. Qed.
Print Assumptions C65_filter_addresses_refuted.

(* missing: ids absent from the index (refuted below) *)
Theorem C66_filter_deleted_ids_partial : forall {A} (fs : list (frag A)) idx p ids (addr : N -> N), sinc (map fr_id fs) -> (forall f, In f fs -> frag_wf f) ->
  (forall i, In i ids -> index_get idx i = Some (addr i)) ->
  sorts p (map addr ids) -> NoDup (map addr ids) -> (forall i, In i ids -> addr i < two64 /\ exists f, In f fs /\ addr i / two32 <= fr_id f) ->
  filter_deleted_ids fs (Some idx) p ids = Some (filter (fun i => survives fs (addr i)) ids).
Proof. exact @filter_deleted_ids_spec. Qed.
Print Assumptions C66_filter_deleted_ids_partial.

Theorem C66_missing_id_refuted : exists (idx : list piece),
  index_new [(0, [Sorted (EU64 [5; 7; 8])])] = IOk idx /\
  index_get idx 6 = None /\ index_get idx 7 = Some 1 /\ index_get idx 8 = Some 2 /\
  row_at del_frag 1 = None /\ row_at del_frag 2 = Some 12%nat /\
  sorts [0; 1]%nat [1; 2] /\
  filter_deleted_ids del_frag (Some idx) [0; 1]%nat [6; 7; 8] = Some [7].
Proof. exact @filter_ids_missing_refuted. Qed.
Print Assumptions C66_missing_id_refuted.
