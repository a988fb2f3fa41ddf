(* C19-C24: logical offsets, fragment take, logical ranges, deletion vectors,
   the row restorer of the updater, fragment deletes.
   Examples: map_offsets_ex, take_indices_ex, patch_range_ex, dv_ex, dv_switch_ex,
   updater_ex, updater_groups_ex, frag_delete_ex. *)
From Coq Require Import List Arith NArith ZArith Bool Permutation Sorted.
From Verif Require Import Lib AMap RowIdsModel SerdeModel DeletionModel DeletionSpec DeletionProofs UpdaterProofs.
Import ListNotations.
Local Open Scope N_scope.

Theorem C19_map_offsets : forall ks d p, dv_wf d -> (forall x, dv_has d x -> x < p) -> p < two32 ->
  nondec ks -> (forall k, In k ks -> k < N.of_nat (length (alive (dv_items d) p))) ->
  exists res, map_offsets d om_new ks = Some res /\
    map Some res = map (fun k => nth_error (alive (dv_items d) p) (N.to_nat k)) ks.
Proof. exact map_offsets_spec. Qed.
Print Assumptions C19_map_offsets.

(* the documented requirement that offsets are non-decreasing is needed *)
Theorem C19_decreasing_offsets_refuted : exists d ks p, dv_wf d /\ (forall x, dv_has d x -> x < p) /\ p < two32 /\
  (forall k, In k ks -> k < N.of_nat (length (alive (dv_items d) p))) /\
  map_offsets d om_new ks = None.
Proof. exact map_offsets_decreasing_refuted. Qed.
Print Assumptions C19_decreasing_offsets_refuted.

Theorem C20_take_indices : forall d p ks, dv_wf d ->
  (forall k, In k ks -> k < N.of_nat (length (alive (dv_items d) p))) ->
  map Some (take_indices (Some d) ks) = map (fun k => nth_error (alive (dv_items d) p) (N.to_nat k)) ks.
Proof. exact take_indices_spec. Qed.
Print Assumptions C20_take_indices.

Theorem C21_patch_range : forall d p a b, dv_wf d -> (forall x, dv_has d x -> x < p) ->
  a <= b -> b <= N.of_nat (length (alive (dv_items d) p)) ->
  let '(s, e) := patch_range (dv_sorted_iter d) a b in
  e <= p /\
  filter (fun x => negb (dv_contains d x)) (nrange s (N.to_nat (e - s))) =
  firstn (N.to_nat (b - a)) (skipn (N.to_nat a) (alive (dv_items d) p)).
Proof. exact patch_range_spec. Qed.
Print Assumptions C21_patch_range.

Theorem C22_extend : forall d items lower upper, dv_wf d -> hint_ok (length items) lower upper ->
  dv_wf (dv_extend d items lower upper) /\
  forall x, dv_has (dv_extend d items lower upper) x <-> dv_has d x \/ In x items.
Proof. exact extend_spec. Qed.
Print Assumptions C22_extend.

Theorem C22_history : forall h d, dv_wf d ->
  (forall items lo up, In (items, lo, up) h -> hint_ok (length items) lo up) ->
  dv_wf (dv_history d h) /\
  forall x, dv_has (dv_history d h) x <-> dv_has d x \/ exists items lo up, In (items, lo, up) h /\ In x items.
Proof. exact history_spec. Qed.
Print Assumptions C22_history.

Theorem C22_sorted_iter : forall d, dv_wf d ->
  sinc (dv_sorted_iter d) /\ (forall x, In x (dv_sorted_iter d) <-> dv_has d x) /\
  length (dv_sorted_iter d) = dv_len d.
Proof. exact sorted_iter_spec. Qed.
Print Assumptions C22_sorted_iter.

Theorem C22_iter_canonical : forall d1 d2, dv_wf d1 -> dv_wf d2 -> (forall x, dv_has d1 x <-> dv_has d2 x) ->
  dv_sorted_iter d1 = dv_sorted_iter d2 /\ dv_len d1 = dv_len d2.
Proof. exact iter_canonical. Qed.
Print Assumptions C22_iter_canonical.

Theorem C22_range_cardinality : forall d a b, dv_wf d ->
  dv_range_card d a b = N.of_nat (length (filter (fun x => (a <=? x) && (x <? b)) (dv_items d))).
Proof. exact range_card_spec. Qed.
Print Assumptions C22_range_cardinality.

Theorem C22_contains_range : forall d a b,
  dv_contains_range d a b = true <-> (forall x, a <= x < b -> dv_has d x).
Proof. exact contains_range_spec. Qed.
Print Assumptions C22_contains_range.

Theorem C22_build_predicate : forall d ids m, dv_build_predicate d ids = Some m ->
  m = map (fun id => negb (dv_contains d (id mod two32))) ids.
Proof. exact build_predicate_spec. Qed.
Print Assumptions C22_build_predicate.

Theorem C22_equality : forall a b, (a = NoDel <-> b = NoDel) ->
  (dv_eqb a b = true <-> forall x, dv_has a x <-> dv_has b x).
Proof. exact dv_eq_spec. Qed.
Print Assumptions C22_equality.

Theorem C22_equality_none_vs_empty_refuted : exists a b, dv_wf a /\ dv_wf b /\ (forall x, dv_has a x <-> dv_has b x) /\ dv_eqb a b = false.
Proof. exact dv_eq_refuted. Qed.
Print Assumptions C22_equality_none_vs_empty_refuted.

Theorem C22_deletion_file_roundtrip : forall ipc_write ipc_read bm_write bm_read version id d,
  (forall s, ipc_read (ipc_write s) = Some [s]) ->
  (forall b, sinc b -> bm_read (bm_write b) = Some b) ->
  dv_wf d ->
  match write_deletion_file ipc_write bm_write version id d with
  | None => d = NoDel
  | Some (f, data) => df_num f = Some (dv_len d) /\
      exists d', read_deletion_file ipc_read bm_read f data = Some d' /\ dv_wf d' /\
                 forall x, dv_has d' x <-> dv_has d x
  end.
Proof. exact deletion_file_roundtrip. Qed.
Print Assumptions C22_deletion_file_roundtrip.

Theorem C23_updater_sound : forall {A} d legacy p (batches : list (list A)) out, dv_wf d -> (forall x, dv_has d x -> x < p) ->
  length (concat batches) = length (alive (dv_items d) p) ->
  run_updater (rs_new d legacy) batches = Some out ->
  values_on_rows (dv_items d) p (concat batches) out.
Proof. exact @updater_sound. Qed.
Print Assumptions C23_updater_sound.

Theorem C23_updater_complete : forall {A} d p (b : list A) (batches : list (list A)), dv_wf d -> (forall x, dv_has d x -> x < p) ->
  length (concat (b :: batches)) = length (alive (dv_items d) p) ->
  ((exists out, run_updater (rs_new d None) (b :: batches) = Some out) <-> (b <> [] \/ ~ dv_has d 0)).
Proof. exact @updater_complete. Qed.
Print Assumptions C23_updater_complete.

Theorem C23_updater_groups_complete : forall {A} d b p (batches : list (list A)), dv_wf d -> (forall x, dv_has d x -> x < p) ->
  0 < b -> batches <> [] -> row_groups (dv_items d) b p 0 batches ->
  ((exists out, run_updater (rs_new d (Some b)) batches = Some out) <-> ~ In [] batches).
Proof. exact @updater_groups_complete. Qed.
Print Assumptions C23_updater_groups_complete.

Theorem C24_frag_delete : forall frag p d bs (matching : N -> Prop), dv_wf d -> p < two32 ->
  (forall x, dv_has d x -> x < p) -> ~ (forall x, x < p -> dv_has d x) ->
  (forall v, In v (concat bs) <-> exists x, v = frag * two32 + x /\ x < p /\ ~ dv_has d x /\ matching x) ->
  match frag_delete p d (PScan bs) with
  | Removed => forall x, x < p -> dv_has d x \/ matching x
  | Unchanged => forall x, x < p -> ~ dv_has d x -> ~ matching x
  | Updated d' => dv_wf d' /\ (exists x, x < p /\ ~ dv_has d x /\ matching x) /\
                  (exists x, x < p /\ ~ dv_has d x /\ ~ matching x) /\
                  (forall x, dv_has d' x <-> dv_has d x \/ (x < p /\ ~ dv_has d x /\ matching x))
  | DelErr => False
  end.
Proof. exact frag_delete_spec. Qed.
Print Assumptions C24_frag_delete.

Theorem C24_frag_delete_literals : forall p d, frag_delete p d PTrue = Removed /\ frag_delete p d PFalse = Unchanged.
Proof. exact frag_delete_literals. Qed.
Print Assumptions C24_frag_delete_literals.

Theorem C24_extend_deletions : forall p d items lo up, dv_wf d -> hint_ok (length items) lo up ->
  (forall x, dv_has d x -> x < p) -> (forall x, In x items -> x < p) ->
  match extend_deletions p d items lo up with
  | Removed => forall x, x < p -> dv_has d x \/ In x items
  | Updated d' => dv_wf d' /\ (exists x, x < p /\ ~ dv_has d x /\ ~ In x items) /\
                  (forall x, dv_has d' x <-> dv_has d x \/ In x items)
  | _ => False
  end.
Proof. exact extend_deletions_spec. Qed.
Print Assumptions C24_extend_deletions.
