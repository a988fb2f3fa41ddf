(* C41: the conflict check of the commit loop reads transactions back from their files. *)
From Coq Require Import List Arith NArith ZArith Bool Permutation Sorted.
From Verif Require Import Lib AMap TxnModel TxnExamples ProtoModel ProtoSpec ProtoProofs ProtoExtProofs ProtoExamples ProtoResults LoopModel LoopProofs LoopExamples PbTxn.
Import ListNotations.
From Verif Require PbModel PbProofs.
Local Open Scope N_scope.

(* [seen_txn] is the protobuf round trip, under any naming of strings, uuids and row-id metadata *)
Theorem C41_reread_is_seen : forall nm uid ids t, a_txn nm uid ids (PbProofs.reread_txn t) = seen_txn (a_txn nm uid ids t).
Proof. exact @reread_seen. Qed.
Print Assumptions C41_reread_is_seen.

(* every conflict is still found, unless the committed transaction overwrote config or cleared schema metadata *)
Theorem C41_conflicts_kept_partial : forall a b, ~ forgets b -> conflicts_with a (seen_op b) = conflicts_with a b.
Proof. exact @seen_conflicts. Qed.
Print Assumptions C41_conflicts_kept_partial.

(* a committed overwrite's config updates are not seen by later commits *)
Theorem C41_conflict_missed_refuted : ~ conflict_free seen_txn.
Proof. exact @conflict_missed_refuted. Qed.
Print Assumptions C41_conflict_missed_refuted.

(* neither is clearing the schema metadata *)
Theorem C41_cleared_metadata_missed_refuted : ~ (forall s, reachable (loop_lts true seen_txn (abs_lts entry)) s ->
  forall i t v u y, snd s i = WDone t v -> t_read t < u < v -> a_vers (fst s) u = Some y -> (forall fs sc up, t_op (e_txn y) <> Overwrite fs sc up) -> conflicts_with (t_op t) (t_op (e_txn y)) = false).
Proof. exact @cleared_metadata_missed_refuted. Qed.
Print Assumptions C41_cleared_metadata_missed_refuted.
