(* C53: a batch of appends committed in one transaction. *)
From Coq Require Import List Arith NArith ZArith Bool Permutation Sorted.
From Verif Require Import Lib AMap TreeMapModel SerdeModel TxnModel TxnSpec TxnLemmas TxnIdsProofs TxnFrame TxnRowIds BatchModel BatchProofs.
Import ListNotations.
Local Open Scope N_scope.

(* The merged transaction conflicts with a committed one exactly when its members do. *)
Theorem C53_batch_check : forall ts u t h, merge_batch ts u = BOk t ->
  (Forall (fun e => conflicts_with (t_op t) (t_op (e_txn e)) = false) (skipn (N.to_nat (t_read t)) h) <->
   forall v, In v ts -> Forall (fun e => conflicts_with (t_op v) (t_op (e_txn e)) = false) (skipn (N.to_nat (t_read t)) h)).
Proof. exact @batch_check. Qed.
Print Assumptions C53_batch_check.

(* Members one by one. *)
Theorem C53_batch_check_each : forall ts u t h v, merge_batch ts u = BOk t -> In v ts ->
  Forall (fun e => conflicts_with (t_op t) (t_op (e_txn e)) = false) (skipn (N.to_nat (t_read t)) h) ->
  Forall (fun e => conflicts_with (t_op v) (t_op (e_txn e)) = false) (skipn (N.to_nat (t_read v)) h).
Proof. exact @batch_check_each. Qed.
Print Assumptions C53_batch_check_each.

(* A committed batch gives the table the appends would have given one after the other. *)
Theorem C53_batch_as_sequence : forall ts u t c h e file m ix, merge_batch ts u = BOk t -> last_entry h = Some e -> settled c (e_man e) -> Forall new_append ts ->
  Forall (fun x => conflicts_with (t_op t) (t_op (e_txn x)) = false) (skipn (N.to_nat (t_read t)) h) -> commit_on h t file c = BOk (m, ix) ->
  exists es e', one_by_one c h ts (h ++ es) /\ map e_txn es = ts /\ last_entry (h ++ es) = Some e' /\ same_table m (e_man e') /\ e_idx e' = ix.
Proof. exact @batch_as_sequence. Qed.
Print Assumptions C53_batch_as_sequence.

(* And conversely. *)
Theorem C53_sequence_as_batch : forall ts u t c h e h' file, merge_batch ts u = BOk t -> last_entry h = Some e -> settled c (e_man e) -> Forall new_append ts -> one_by_one c h ts h' ->
  exists m ix e', commit_on h t file c = BOk (m, ix) /\ last_entry h' = Some e' /\ same_table m (e_man e') /\ e_idx e' = ix.
Proof. exact @sequence_as_batch. Qed.
Print Assumptions C53_sequence_as_batch.

(* The one-by-one commits form a history. *)
Theorem C53_one_by_one_history : forall c h ts h', one_by_one c h ts h' -> history h -> h <> [] -> (forall v, In v ts -> 1 <= t_read v <= N.of_nat (length h)) -> history h'.
Proof. exact @one_by_one_history. Qed.
Print Assumptions C53_one_by_one_history.
