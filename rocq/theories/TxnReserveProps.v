(* C83 (committing compaction results) and C84 (reserved fragment ids). *)
From Coq Require Import List Arith NArith ZArith Bool Permutation Sorted.
From Verif Require Import Lib AMap TreeMapModel SerdeModel TxnModel TxnSpec TxnLemmas TxnIdsProofs TxnFrame TxnRowIds TxnExamples TxnReserve.
Import ListNotations.
Local Open Scope N_scope.

(* Missing: commit_compaction does not check that the handle is not newer than the versions the tasks read; without that it is false (below). *)
Theorem C83_compaction_keeps_rows_partial : forall {R} (rows : fragment -> list R) h e m handle uuid tasks rw,
  (forall f i, rows (set_id f i) = rows f) -> (forall a b, same_rows a b -> rows a = rows b) ->
  good (h ++ [e]) -> e_txn e = commit_compaction handle uuid tasks rw -> latest h = Some m ->
  NoDup (map f_id (flat_map tr_old tasks)) -> Forall (task_done rows h) tasks ->
  Forall (fun t => handle <= tr_read t) tasks ->
  Permutation (flat_map rows (m_fragments (e_man e))) (flat_map rows (m_fragments m)) /\
  (forall f, In f (m_fragments m) -> ~ In (f_id f) (map f_id (flat_map tr_old tasks)) -> In f (m_fragments (e_man e))).
Proof. exact @compaction_keeps_rows. Qed.
Print Assumptions C83_compaction_keeps_rows_partial.

(* A handle newer than the tasks' version: a row deleted in between is back. *)
Theorem C83_deleted_rows_back_refuted : exists h e m task handle uuid rw, good (h ++ [e]) /\ e_txn e = commit_compaction handle uuid [task] rw /\ latest h = Some m /\
  task_done ex_rows h task /\ tr_read task < handle /\
  Forall (fun x => match t_op (e_txn x) with Delete _ _ | ReserveFragments _ => True | _ => False end) (since h (tr_read task)) /\
  exists r, ~ In r (flat_map ex_rows (m_fragments m)) /\ In r (flat_map ex_rows (m_fragments (e_man e))).
Proof. exact @deleted_rows_back_refuted. Qed.
Print Assumptions C83_deleted_rows_back_refuted.

(* The same with an overwrite in between: all rows of the new table are replaced by those of the old. *)
Theorem C83_overwritten_rows_back_refuted : exists h e m task handle uuid rw, good (h ++ [e]) /\ e_txn e = commit_compaction handle uuid [task] rw /\ latest h = Some m /\
  task_done ex_rows h task /\ tr_read task < handle /\
  flat_map ex_rows (m_fragments m) <> [] /\ forall r, In r (flat_map ex_rows (m_fragments m)) -> ~ In r (flat_map ex_rows (m_fragments (e_man e))).
Proof. exact @overwritten_rows_back_refuted. Qed.
Print Assumptions C83_overwritten_rows_back_refuted.

(* A reserved id is not used by any version until its owner commits it, whatever else is committed. *)
Theorem C84_reserved_fresh : forall h r i, good h -> no_restore h -> reserved_in h r i ->
  Forall (fun x => is_reset (t_op (e_txn x)) = false) (since h r) ->
  (forall x, In x h -> ~ In i (chosen_ids (new_fragments (t_op (e_txn x))))) ->
  ~ used h i /\ i <> 0 /\ exists m, latest h = Some m /\ i <= m_max m.
Proof. exact @reserved_fresh. Qed.
Print Assumptions C84_reserved_fresh.

(* Two reservations never hand out the same id. *)
Theorem C84_reservations_disjoint : forall h r1 r2 i, good h -> no_restore h -> reserved_in h r1 i -> reserved_in h r2 i -> r1 = r2.
Proof. exact @reservations_disjoint. Qed.
Print Assumptions C84_reservations_disjoint.

(* Histories of writers that take ids only like this meet the id hypotheses of C36, C38, C39, C44 and C51. *)
Theorem C84_reserved_honest : forall h, history h -> no_restore h -> all_entries takes_reserved h -> all_entries ids_honest h.
Proof. exact @reserved_honest. Qed.
Print Assumptions C84_reserved_honest.

(* One reservation gives distinct ids to all its fragments. *)
Theorem C84_reserve_ids : forall m l l', reserve_fragment_ids m l = BOk l' -> NoDup (map f_id l') /\ length l' = length l.
Proof. exact @reserve_NoDup. Qed.
Print Assumptions C84_reserve_ids.

(* a history meeting the hypotheses: two appends, a delete elsewhere, a reservation and a compaction *)
Example C84_compacted_example : good (hist compacted_h) /\ all_entries takes_reserved (hist compacted_h) /\ no_restore (hist compacted_h) /\
  Forall (task_done ex_rows (firstn 5 (hist compacted_h))) [{| tr_read := 2; tr_old := [old0]; tr_new := [frag 2 12 5 [0%Z; 1%Z]] |}] /\
  map (fun e => frag_ids (e_man e)) (hist compacted_h) = [[0]; [0; 1]; [0; 1]; [0; 1]; [0; 1; 3]; [1; 2; 3]].
Proof. exact compacted_ok. Qed.
