(* Properties of transactions and table histories (C36-C40, C42, C43, C51, C67). *)
From Coq Require Import List Arith NArith ZArith Bool Permutation Sorted.
From Verif Require Import Lib AMap TreeMapModel SerdeModel TxnModel TxnSpec TxnLemmas TxnIdsProofs TxnFrame TxnRowIds TxnConfig TxnRewrite TxnExamples TxnMatrix.
Import ListNotations.
Local Open Scope N_scope.

(* two row-changing operations conflict iff they touch a common fragment *)
Theorem C36_row_conflict : forall a b, row_op a -> row_op b -> (conflicts_with a b = true <-> exists i, touches a i /\ touches b i).
Proof. exact @row_conflict. Qed.
Print Assumptions C36_row_conflict.

(* fragments changed by an accepted row change are as they were when it was read *)
Theorem C36_accepted_keeps : forall h e m0 m, history (h ++ [e]) -> row_op (t_op (e_txn e)) -> man_at h (t_read (e_txn e)) = Some m0 -> latest h = Some m ->
  forall f, In f (m_fragments m0) -> touches (t_op (e_txn e)) (f_id f) ->
  exists f', In f' (m_fragments m) /\ same_rows f f' /\
    (Forall (fun x => is_project (t_op (e_txn x)) = false) (since h (t_read (e_txn e))) -> f' = f).
Proof. exact @accepted_keeps. Qed.
Print Assumptions C36_accepted_keeps.

(* no commit other than a reset loses a deletion of an untouched fragment *)
Theorem C36_deletions_survive : forall h e m, good (h ++ [e]) -> merge_honest h (e_txn e) -> is_reset (t_op (e_txn e)) = false -> latest h = Some m ->
  forall f, In f (m_fragments m) -> ~ touches (t_op (e_txn e)) (f_id f) -> exists f', In f' (m_fragments (e_man e)) /\ same_deletions f f'.
Proof. exact @deletions_survive. Qed.
Print Assumptions C36_deletions_survive.

(* a commit leaves the fragments it does not touch alone *)
Theorem C36_commit_frame : forall h t file c m' ix m f, commit_on h t file c = BOk (m', ix) -> keeps_others (t_op t) -> latest h = Some m ->
  In f (m_fragments m) -> ~ touches (t_op t) (f_id f) -> exists sch, In (if is_project (t_op t) then project_files sch f else f) (m_fragments m').
Proof. exact @commit_frame. Qed.
Print Assumptions C36_commit_frame.

(* literal equality of the fragment fails when a Project committed in between *)
Theorem C36_unchanged_refuted : exists h e m0 m f, history (h ++ [e]) /\ row_op (t_op (e_txn e)) /\ man_at h (t_read (e_txn e)) = Some m0 /\ latest h = Some m /\
  In f (m_fragments m0) /\ touches (t_op (e_txn e)) (f_id f) /\ ~ In f (m_fragments m) /\
  exists g d, In g (m_fragments (e_man e)) /\ In d (f_files g) /\ forall z, In z (df_fields d) -> ~ In z (field_ids (m_schema (e_man e))).
Proof. exact @unchanged_refuted. Qed.
Print Assumptions C36_unchanged_refuted.

Theorem C37_project_overwrite_refuted : exists h e m s, history (h ++ [e]) /\ t_op (e_txn e) = Project s /\ latest h = Some m /\
  (exists x, In x (since h (t_read (e_txn e))) /\ exists l s' u, t_op (e_txn x) = Overwrite l s' u) /\
  (exists f, In f (m_fragments m) /\ f_files f <> [] /\ f_rows f = Some 7) /\
  forall f, In f (m_fragments (e_man e)) -> f_files f = [] /\ f_rows f = Some 7.
Proof. exact @project_overwrite_refuted. Qed.
Print Assumptions C37_project_overwrite_refuted.

Theorem C37_project_relabels_refuted : exists h e m f, history (h ++ [e]) /\ latest h = Some m /\ In f (m_fragments m) /\ In f (m_fragments (e_man e)) /\ f_files f <> [] /\
  map fd_id (sc_fields (m_schema m)) = map fd_id (sc_fields (m_schema (e_man e))) /\ map fd_name (sc_fields (m_schema m)) <> map fd_name (sc_fields (m_schema (e_man e))).
Proof. exact @project_relabels_refuted. Qed.
Print Assumptions C37_project_relabels_refuted.

(* without a concurrent reset the Project applies to the fragments it read *)
Theorem C37_project_applies_partial : forall h e m0 s, good (h ++ [e]) -> h <> [] -> t_op (e_txn e) = Project s -> man_at h (t_read (e_txn e)) = Some m0 ->
  Forall (fun x => is_reset (t_op (e_txn x)) = false) (since h (t_read (e_txn e))) ->
  m_fragments (e_man e) = map (project_files s) (m_fragments m0) /\ m_schema (e_man e) = s /\
  (forall f d, In f (m_fragments m0) -> In d (f_files f) -> (In d (f_files (project_files s f)) <-> exists z, In z (df_fields d) /\ In z (field_ids s))).
Proof. exact @project_applies. Qed.
Print Assumptions C37_project_applies_partial.

(* every version's ids strictly increase, are bounded by the recorded maximum, below 2^32 *)
Theorem C38_ids_unique_increasing : forall h, good h -> forall e, In e h -> man_wf (e_man e).
Proof. exact @history_wf. Qed.
Print Assumptions C38_ids_unique_increasing.

Theorem C38_used_below_max : forall h m, good h -> no_restore h -> latest h = Some m -> forall i, used h i -> i <= m_max m.
Proof. exact @used_below_max. Qed.
Print Assumptions C38_used_below_max.

(* a new id was never used, except id 0 when the table was emptied and the maximum is 0 *)
Theorem C38_fresh_ids_partial : forall h e m, good (h ++ [e]) -> no_restore h -> is_reset (t_op (e_txn e)) = false -> latest h = Some m ->
  forall i, In i (frag_ids (e_man e)) -> ~ In i (frag_ids m) -> used h i -> i = 0 /\ m_max m = 0 /\ frag_ids m = [].
Proof. exact @fresh_ids. Qed.
Print Assumptions C38_fresh_ids_partial.

Theorem C38_id_reuse_refuted : exists h e m, good (h ++ [e]) /\ no_restore h /\ is_reset (t_op (e_txn e)) = false /\ latest h = Some m /\
  exists i, In i (frag_ids (e_man e)) /\ ~ In i (frag_ids m) /\ used h i.
Proof. exact @id_reuse_refuted. Qed.
Print Assumptions C38_id_reuse_refuted.

(* ids chosen by a dishonest writer are not checked *)
Theorem C38_duplicate_ids_refuted : exists h e, history h /\ In e h /\ ~ NoDup (frag_ids (e_man e)).
Proof. exact @duplicate_ids_refuted. Qed.
Print Assumptions C38_duplicate_ids_refuted.

Theorem C39_row_ids_unique : forall h, good_rows h -> forall e, In e h -> rows_ok (e_man e).
Proof. exact @history_rows. Qed.
Print Assumptions C39_row_ids_unique.

Theorem C39_row_ids_below_next : forall h m, good_rows h -> no_restore h -> latest h = Some m -> forall x, row_used h x -> x < m_next_row m.
Proof. exact @row_used_below. Qed.
Print Assumptions C39_row_ids_below_next.

Theorem C39_new_rows_fresh : forall h e m, good_rows (h ++ [e]) -> latest h = Some m -> uses_stable m = true ->
  (match t_op (e_txn e) with Append _ | Overwrite _ _ _ | Update _ _ _ => True | _ => False end) ->
  exists l new, Permutation (m_fragments (e_man e)) (l ++ new) /\
    map f_rows new = map f_rows (new_fragments (t_op (e_txn e))) /\
    Forall (fun f => exists r k, f_rowids f = Some r /\ f_rows f = Some k /\ length r = N.to_nat k) new /\
    flat_map frag_row_ids new = nrange (m_next_row m) (N.to_nat (m_next_row (e_man e) - m_next_row m)) /\
    (no_restore h -> forall x, In x (flat_map frag_row_ids new) -> ~ row_used h x).
Proof. exact @new_rows_fresh. Qed.
Print Assumptions C39_new_rows_fresh.

(* an empty stable-row-id table loses the flag and stops assigning ids *)
Theorem C39_stable_flag_refuted : exists h m1 m3 f, good_rows h /\ no_restore h /\ man_at h 1 = Some m1 /\ uses_stable m1 = true /\ man_at h 3 = Some m3 /\
  In f (m_fragments m3) /\ f_rows f = Some 2 /\ f_rowids f = None.
Proof. exact @stable_flag_refuted. Qed.
Print Assumptions C39_stable_flag_refuted.

Theorem C40_restore_reuse_refuted : exists h e m, good_rows (h ++ [e]) /\ latest h = Some m /\
  (exists i, In i (frag_ids (e_man e)) /\ ~ In i (frag_ids m) /\ used h i) /\ (exists x, In x (row_ids (e_man e)) /\ ~ In x (row_ids m) /\ row_used h x).
Proof. exact @restore_reuse_refuted. Qed.
Print Assumptions C40_restore_reuse_refuted.

Theorem C42_effect : forall h e, history (h ++ [e]) -> cfg_wf (t_op (e_txn e)) -> (forall v, t_op (e_txn e) <> Restore v) ->
  forall k, get k (m_config (e_man e)) =
    match cfg_writes (t_op (e_txn e)) k with Some r => r | None => match latest h with Some m => get k (m_config m) | None => None end end.
Proof. exact @config_effect. Qed.
Print Assumptions C42_effect.

Theorem C42_conflict : forall a b, is_config a -> is_config b ->
  (conflicts_with a b = true <->
     (exists k v, (cfg_writes a k = Some (Some v) /\ cfg_writes b k <> None) \/ (cfg_writes b k = Some (Some v) /\ cfg_writes a k <> None)) \/
     (sets_schema_meta a /\ sets_schema_meta b) \/ (exists id, sets_field_meta a id /\ sets_field_meta b id)).
Proof. exact @config_conflict. Qed.
Print Assumptions C42_conflict.

Theorem C42_both_take_effect : forall a b c s k, is_config a -> is_config b -> cfg_wf a -> cfg_wf b -> conflicts_with b a = false ->
  get k (fst (apply_config b (fst (apply_config a c s)) (snd (apply_config a c s)))) =
    match cfg_writes a k with Some r => r | None => match cfg_writes b k with Some r => r | None => get k c end end.
Proof. exact @both_take_effect. Qed.
Print Assumptions C42_both_take_effect.

Theorem C42_commute : forall a b c s, is_config a -> is_config b -> cfg_wf a -> cfg_wf b -> am_wf c -> conflicts_with b a = false ->
  fst (apply_config b (fst (apply_config a c s)) (snd (apply_config a c s))) = fst (apply_config a (fst (apply_config b c s)) (snd (apply_config b c s))).
Proof. exact @config_commute. Qed.
Print Assumptions C42_commute.

Theorem C42_schema_commute : forall a b c c1 c2 s, is_config a -> is_config b -> conflicts_with b a = false ->
  snd (apply_config b c1 (snd (apply_config a c s))) = snd (apply_config a c2 (snd (apply_config b c s))).
Proof. exact @schema_commute. Qed.
Print Assumptions C42_schema_commute.

Theorem C43_flags_exact : forall h e, history (h ++ [e]) -> wc_auto_flags (e_cfg e) = true ->
  let m := e_man e in
  (N.testbit (m_rflags m) 0 = true <-> needs_deletion_files m) /\
  (N.testbit (m_rflags m) 1 = true <-> has_row_ids m \/ wc_stable (e_cfg e) = true) /\
  (N.testbit (m_rflags m) 1 = true -> forall f, In f (m_fragments m) -> f_rowids f <> None) /\
  (N.testbit (m_wflags m) 3 = true <-> m_config m <> []) /\
  N.testbit (m_wflags m) 0 = N.testbit (m_rflags m) 0 /\ N.testbit (m_wflags m) 1 = N.testbit (m_rflags m) 1 /\
  can_read_dataset (m_rflags m) = true /\ can_write_dataset (m_wflags m) = true.
Proof. exact @history_flags. Qed.
Print Assumptions C43_flags_exact.

(* the rows are a permutation and other fragments are untouched *)
Theorem C51_rows_kept_partial : forall {R} (rows : fragment -> list R) h e m gs rw,
  (forall f i, rows (set_id f i) = rows f) -> (forall a b, same_rows a b -> rows a = rows b) ->
  good (h ++ [e]) -> t_op (e_txn e) = Rewrite gs rw -> latest h = Some m ->
  NoDup (map f_id (flat_map rg_old gs)) ->
  (forall g o, In g gs -> In o (rg_old g) -> exists mr, man_at h (t_read (e_txn e)) = Some mr /\ In o (m_fragments mr)) ->
  (forall g, In g gs -> Permutation (flat_map rows (rg_new g)) (flat_map rows (rg_old g))) ->
  Permutation (flat_map rows (m_fragments (e_man e))) (flat_map rows (m_fragments m)) /\
  (forall f, In f (m_fragments m) -> ~ In (f_id f) (map f_id (flat_map rg_old gs)) -> In f (m_fragments (e_man e))).
Proof. exact @rewrite_keeps_rows. Qed.
Print Assumptions C51_rows_kept_partial.

(* the order is kept when the spliced ids are nondecreasing *)
Theorem C51_order_kept_partial : forall {R} (rows : fragment -> list R) h e m gs rw,
  (forall f i, rows (set_id f i) = rows f) -> (forall a b, same_rows a b -> rows a = rows b) ->
  good (h ++ [e]) -> t_op (e_txn e) = Rewrite gs rw -> latest h = Some m ->
  NoDup (map f_id (flat_map rg_old gs)) -> (forall g, In g gs -> adjacent (frag_ids m) g) ->
  (forall g o, In g gs -> In o (rg_old g) -> exists mr, man_at h (t_read (e_txn e)) = Some mr /\ In o (m_fragments mr)) ->
  (forall g, In g gs -> flat_map rows (rg_new g) = flat_map rows (rg_old g)) ->
  exists l, flat_map rows l = flat_map rows (m_fragments m) /\ m_fragments (e_man e) = sort_frags l /\
            (nondec_ids l -> flat_map rows (m_fragments (e_man e)) = flat_map rows (m_fragments m)).
Proof. exact @rewrite_keeps_order. Qed.
Print Assumptions C51_order_kept_partial.

Theorem C51_order_refuted : exists h e m gs rw, good_rows (h ++ [e]) /\ t_op (e_txn e) = Rewrite gs rw /\ latest h = Some m /\
  NoDup (map f_id (flat_map rg_old gs)) /\ (forall g, In g gs -> adjacent (frag_ids m) g) /\
  (forall g o, In g gs -> In o (rg_old g) -> exists mr, man_at h (t_read (e_txn e)) = Some mr /\ In o (m_fragments mr)) /\
  (forall g, In g gs -> flat_map frag_row_ids (rg_new g) = flat_map frag_row_ids (rg_old g)) /\
  flat_map frag_row_ids (m_fragments (e_man e)) <> flat_map frag_row_ids (m_fragments m).
Proof. exact @rewrite_order_refuted. Qed.
Print Assumptions C51_order_refuted.

Theorem C67_no_missing_conflict_partial : forall a b r c, kind_of a = Some r -> kind_of b = Some c -> looser r c = false ->
  doc_conflict a b -> conflicts_with a b = true.
Proof. exact @no_missing_conflict. Qed.
Print Assumptions C67_no_missing_conflict_partial.

Theorem C67_no_extra_conflict_partial : forall a b r c, kind_of a = Some r -> kind_of b = Some c -> stricter r c = false ->
  conflicts_with a b = true -> doc_conflict a b.
Proof. exact @no_extra_conflict. Qed.
Print Assumptions C67_no_extra_conflict_partial.

Theorem C67_missing_conflicts_refuted : forall r c, looser r c = true ->
  exists a b, kind_of a = Some r /\ kind_of b = Some c /\ doc_conflict a b /\ conflicts_with a b = false.
Proof. exact @looser_real_refuted. Qed.
Print Assumptions C67_missing_conflicts_refuted.

Theorem C67_extra_conflicts_refuted : forall r c, stricter r c = true ->
  exists a b, kind_of a = Some r /\ kind_of b = Some c /\ ~ doc_conflict a b /\ conflicts_with a b = true.
Proof. exact @stricter_real. Qed.
Print Assumptions C67_extra_conflicts_refuted.
