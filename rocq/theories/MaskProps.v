(* C11-C17 and C64: row addresses, row-id sets, row filters.
   Examples: address_ex, insert_range_ex, tree_map_roundtrip_ex, mask_and_ex, seq_to_set_ex. *)
From Coq Require Import List Arith NArith ZArith Bool Permutation Sorted.
From Verif Require Import Lib AMap RowIdsModel RowIdsSpec SerdeModel TreeMapModel TreeMapProofs TreeMapProofs2 MaskProofs SeqSetProofs.
Import ListNotations.
Local Open Scope N_scope.

Theorem C11_address_roundtrip : forall f o, f < two32 -> o < two32 ->
  new_from_parts f o < two64 /\ fragment_id (new_from_parts f o) = f /\ row_offset (new_from_parts f o) = o.
Proof. exact address_roundtrip. Qed.
Print Assumptions C11_address_roundtrip.

Theorem C11_address_split : forall v, v < two64 -> new_from_parts (fragment_id v) (row_offset v) = v.
Proof. exact address_split. Qed.
Print Assumptions C11_address_split.

Theorem C11_address_order : forall f o f' o', f < two32 -> o < two32 -> f' < two32 -> o' < two32 ->
  (new_from_parts f o < new_from_parts f' o' <-> f < f' \/ (f = f' /\ o < o')).
Proof. exact address_order. Qed.
Print Assumptions C11_address_order.

Theorem C11_address_range : forall f v, f < TOMBSTONE_FRAG -> v < two64 ->
  exists a b, address_range f = Some (a, b) /\ (a <= v < b <-> fragment_id v = f).
Proof. exact address_range_spec. Qed.
Print Assumptions C11_address_range.

Theorem C12_insert : forall m v x, v < two64 -> x < two64 ->
  t_contains x (fst (t_insert v m)) = (x =? v) || t_contains x m.
Proof. exact insert_spec. Qed.
Print Assumptions C12_insert.

Theorem C12_insert_reports_new : forall m v, snd (t_insert v m) = negb (t_contains v m).
Proof. exact insert_reports_new. Qed.
Print Assumptions C12_insert_reports_new.

Theorem C12_remove : forall m v x, v < two64 -> x < two64 ->
  t_contains x (fst (t_remove v m)) = negb (x =? v) && t_contains x m.
Proof. exact remove_spec. Qed.
Print Assumptions C12_remove.

Theorem C12_remove_reports_present : forall m v, snd (t_remove v m) = t_contains v m.
Proof. exact remove_reports_present. Qed.
Print Assumptions C12_remove_reports_present.

Theorem C12_insert_fragment : forall m f x, t_contains x (t_insert_fragment f m) = (fragment_id x =? f) || t_contains x m.
Proof. exact insert_fragment_spec. Qed.
Print Assumptions C12_insert_fragment.

Theorem C12_retain_fragments : forall m fs x, t_contains x (t_retain fs m) = memN (fragment_id x) fs && t_contains x m.
Proof. exact retain_spec. Qed.
Print Assumptions C12_retain_fragments.

Theorem C12_intersection : forall a b x, am_wf a -> t_contains x (t_and a b) = t_contains x a && t_contains x b.
Proof. exact and_spec. Qed.
Print Assumptions C12_intersection.

Theorem C12_difference : forall a b x, am_wf b -> t_contains x (t_sub a b) = t_contains x a && negb (t_contains x b).
Proof. exact sub_spec. Qed.
Print Assumptions C12_difference.

Theorem C12_union_all : forall ms x, Forall (fun m => am_wf m) ms ->
  t_contains x (t_union_all ms) = existsb (t_contains x) ms.
Proof. exact union_all_spec. Qed.
Print Assumptions C12_union_all.

Theorem C12_extend_ids : forall ids m x, Forall (fun v => v < two64) ids -> x < two64 ->
  t_contains x (t_extend ids m) = memN x ids || t_contains x m.
Proof. exact extend_spec. Qed.
Print Assumptions C12_extend_ids.

Theorem C12_extend_sets : forall others m x, Forall (fun o => am_wf o) others ->
  t_contains x (t_extend_maps others m) = existsb (t_contains x) others || t_contains x m.
Proof. exact extend_maps_spec. Qed.
Print Assumptions C12_extend_sets.

Theorem C12_enumeration : forall m ids, t_wf m -> t_row_ids m = Some ids ->
  sinc ids /\ t_len m = Some (N.of_nat (length ids)) /\
  (forall v, v < two64 -> (In v ids <-> t_contains v m = true)).
Proof. exact row_ids_spec. Qed.
Print Assumptions C12_enumeration.

Theorem C12_enumeration_unknown : forall m, t_row_ids m = None <-> exists f, In (f, Full) m.
Proof. exact row_ids_none. Qed.
Print Assumptions C12_enumeration_unknown.

Theorem C12_insert_keeps_wf : forall m v, t_wf m -> t_wf (fst (t_insert v m)).
Proof. exact insert_wf. Qed.
Print Assumptions C12_insert_keeps_wf.

Theorem C12_remove_keeps_wf : forall m v, t_wf m -> t_wf (fst (t_remove v m)).
Proof. exact remove_wf. Qed.
Print Assumptions C12_remove_keeps_wf.

Theorem C12_difference_keeps_wf : forall b a, t_wf a -> t_wf (t_sub a b).
Proof. exact sub_wf. Qed.
Print Assumptions C12_difference_keeps_wf.

Theorem C12_intersection_keeps_wf : forall a b, t_wf a -> t_wf b -> t_wf (t_and a b).
Proof. exact and_wf. Qed.
Print Assumptions C12_intersection_keeps_wf.

Theorem C12_union_keeps_wf : forall b a, t_wf a -> t_wf b -> t_wf (t_or a b).
Proof. exact or_wf. Qed.
Print Assumptions C12_union_keeps_wf.

(* missing: fragments partial on the left and whole on the right, where the claim is false *)
Theorem C13_union_assign_partial : forall a b x, am_wf b -> no_partial_vs_full a b ->
  t_contains x (t_or a b) = t_contains x a || t_contains x b.
Proof. exact or_spec. Qed.
Print Assumptions C13_union_assign_partial.

(* what the union contains in every case *)
Theorem C13_union_assign_exact : forall a b x, am_wf b ->
  t_contains x (t_or a b) =
  t_contains x a || (t_contains x b && negb (match get (fragment_id x) a, get (fragment_id x) b with
                                             | Some (Partial _), Some Full => true | _, _ => false end)).
Proof. exact or_spec_exact. Qed.
Print Assumptions C13_union_assign_exact.

Theorem C13_union_assign_refuted : exists a b x, t_wf a /\ t_wf b /\ x < two64 /\
  t_contains x b = true /\ t_contains x (t_or a b) = false.
Proof. exact or_refuted. Qed.
Print Assumptions C13_union_assign_refuted.

Theorem C14_roundtrip : forall ser deser m rest, codec_ok ser deser m -> t_wf m -> N.of_nat (length m) < two32 ->
  t_deserialize deser (t_serialize ser m ++ rest) = Some m.
Proof. exact tree_map_roundtrip. Qed.
Print Assumptions C14_roundtrip.

Theorem C14_size : forall ser m, t_serialized_size ser m = length (t_serialize ser m).
Proof. exact tree_map_size. Qed.
Print Assumptions C14_size.

Theorem C14_mask_roundtrip : forall ser deser m,
  (forall t, allow m = Some t \/ block m = Some t -> codec_ok ser deser t /\ t_wf t /\ N.of_nat (length t) < two32) ->
  from_arrow deser (into_arrow ser m) = Some m.
Proof. exact mask_arrow_roundtrip. Qed.
Print Assumptions C14_mask_roundtrip.

(* missing: `..0` (inserts 0) and ranges reaching the last fragment (do not terminate normally) *)
Theorem C15_insert_range_partial : forall b1 b2 m, t_wf m -> bound_ok b1 -> bound_ok b2 ->
  b2 <> Excluded 0 -> b1 <> Excluded u64_max -> fragment_id (upper b2) < u32_max ->
  exists m' c, t_insert_range b1 b2 m = Some (m', c) /\ t_wf m' /\
    (forall x, x < two64 -> (t_contains x m' = true <-> t_contains x m = true \/ in_range b1 b2 x)) /\
    exists news, NoDup news /\ c = N.of_nat (length news) /\
      (forall x, x < two64 -> (In x news <-> t_contains x m = false /\ in_range b1 b2 x)).
Proof. exact insert_range_spec. Qed.
Print Assumptions C15_insert_range_partial.

Theorem C15_insert_range_exact : forall b1 b2 m, t_wf m -> bound_ok b1 -> bound_ok b2 ->
  fragment_id (upper b2) < u32_max ->
  exists m' c, t_insert_range b1 b2 m = Some (m', c) /\ t_wf m' /\
    c = N.of_nat (length (fresh m (range_list (lower b1) (upper b2 + 1)))) /\
    forall x, x < two64 -> (t_contains x m' = true <-> t_contains x m = true \/ lower b1 <= x <= upper b2).
Proof. exact insert_range_exact. Qed.
Print Assumptions C15_insert_range_exact.

Theorem C15_last_fragment : forall b1 b2 m, fragment_id (upper b2) = u32_max -> t_insert_range b1 b2 m = None.
Proof. exact insert_range_last_fragment. Qed.
Print Assumptions C15_last_fragment.

Theorem C15_empty_range_refuted :
  ~ in_range (Included 0) (Excluded 0) 0 /\
  exists m', t_insert_range (Included 0) (Excluded 0) [] = Some (m', 1) /\ t_contains 0 m' = true.
Proof. exact insert_empty_range_refuted. Qed.
Print Assumptions C15_empty_range_refuted.

Theorem C15_full_range_refuted : t_insert_range Unbounded Unbounded [] = None.
Proof. exact insert_full_range_refuted. Qed.
Print Assumptions C15_full_range_refuted.

Theorem C16_selected : forall m v, selected m v = allows m v && negb (blocks m v).
Proof. exact selected_spec. Qed.
Print Assumptions C16_selected.

Theorem C16_selected_indices : forall m ids,
  (allow m = None /\ block m = None -> selected_indices m ids = None) /\
  (~ (allow m = None /\ block m = None) -> exists r, selected_indices m ids = Some r /\ sincn r /\
     forall k, In k r <-> exists v, nth_error ids k = Some v /\ selected m v = true).
Proof. exact selected_indices_spec. Qed.
Print Assumptions C16_selected_indices.

(* missing: block lists where the left is partial and the right whole (false, see the witness) *)
Theorem C16_and_partial : forall x y v, mask_wf x -> mask_wf y -> blocks_unitable x y ->
  selected (mask_and x y) v = selected x v && selected y v.
Proof. exact mask_and_spec. Qed.
Print Assumptions C16_and_partial.

Theorem C16_also_block_partial : forall m b v, am_wf b ->
  (forall e, block m = Some e -> no_partial_vs_full e b) ->
  selected (also_block m b) v = selected m v && negb (t_contains v b).
Proof. exact also_block_spec. Qed.
Print Assumptions C16_also_block_partial.

Theorem C16_also_allow_partial : forall m a v, am_wf a ->
  (forall e, allow m = Some e -> no_partial_vs_full e a) ->
  selected (also_allow m a) v = (allows m v || t_contains v a) && negb (blocks m v).
Proof. exact also_allow_spec. Qed.
Print Assumptions C16_also_allow_partial.

Theorem C16_and_refuted : exists x y v, mask_wf x /\ mask_wf y /\
  selected y v = false /\ selected (mask_and x y) v = true.
Proof. exact mask_and_refuted. Qed.
Print Assumptions C16_and_refuted.

Theorem C16_also_block_refuted : exists m b v, mask_wf m /\ am_wf b /\ t_contains v b = true /\ selected (also_block m b) v = true.
Proof. exact also_block_refuted. Qed.
Print Assumptions C16_also_block_refuted.

Theorem C17_or_allow_lists_partial : forall a b v, am_wf b -> no_partial_vs_full a b ->
  selected (mask_or (from_allowed a) (from_allowed b)) v = selected (from_allowed a) v || selected (from_allowed b) v.
Proof. exact mask_or_allow_spec. Qed.
Print Assumptions C17_or_allow_lists_partial.

Theorem C17_or_block_lists_partial : forall a b v, am_wf a ->
  selected (mask_or (from_block a) (from_block b)) v = selected (from_block a) v || selected (from_block b) v.
Proof. exact mask_or_block_spec. Qed.
Print Assumptions C17_or_block_lists_partial.

Theorem C17_not_one_list_partial : forall m v, (allow m = None /\ block m <> None) \/ (allow m <> None /\ block m = None) ->
  selected (mask_not m) v = negb (selected m v).
Proof. exact mask_not_spec. Qed.
Print Assumptions C17_not_one_list_partial.

Theorem C17_not_all_rows_refuted : selected all_rows 0 = true /\ selected (mask_not all_rows) 0 = true.
Proof. exact mask_not_all_rows_refuted. Qed.
Print Assumptions C17_not_all_rows_refuted.

Theorem C17_not_both_lists_refuted : exists m v, mask_wf m /\ selected m v = false /\ selected (mask_not m) v = false.
Proof. exact mask_not_both_refuted. Qed.
Print Assumptions C17_not_both_lists_refuted.

Theorem C17_or_loses_row_refuted : exists x y v, mask_wf x /\ mask_wf y /\
  selected y v = true /\ selected (mask_or x y) v = false.
Proof. exact mask_or_refuted. Qed.
Print Assumptions C17_or_loses_row_refuted.

Theorem C17_or_adds_row_refuted : exists x y v, mask_wf x /\ mask_wf y /\
  selected x v = false /\ selected y v = false /\ selected (mask_or x y) v = true.
Proof. exact mask_or_extra_refuted. Qed.
Print Assumptions C17_or_adds_row_refuted.

Theorem C64_seq_to_set_partial : forall q, seq_wf q -> Forall span_ok q -> no_reskip q ->
  exists m, t_of_seq q = Some m /\ t_wf m /\ forall x, x < two64 -> (t_contains x m = true <-> In x (seq_iter q)).
Proof. exact seq_to_set_spec. Qed.
Print Assumptions C64_seq_to_set_partial.

Theorem C64_seq_to_set_reskip_refuted :
  seq_wf [Range 5 6; Holes 0 10 (EU16 5 [0])] /\ NoDup (seq_iter [Range 5 6; Holes 0 10 (EU16 5 [0])]) /\
  In 5 (seq_iter [Range 5 6; Holes 0 10 (EU16 5 [0])]) /\
  exists m, t_of_seq [Range 5 6; Holes 0 10 (EU16 5 [0])] = Some m /\ t_contains 5 m = false.
Proof. exact seq_to_set_reskip_refuted. Qed.
Print Assumptions C64_seq_to_set_reskip_refuted.

Theorem C64_seq_to_set_empty_refuted : seq_iter [Range 0 0] = [] /\ exists m, t_of_seq [Range 0 0] = Some m /\ t_contains 0 m = true.
Proof. exact seq_to_set_empty_refuted. Qed.
Print Assumptions C64_seq_to_set_empty_refuted.
