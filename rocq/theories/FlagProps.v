(* C74: versions whose feature flags this library does not know. *)
From Coq Require Import List Arith NArith ZArith Bool Permutation Sorted.
From Verif Require Import Lib AMap TreeMapModel SerdeModel TxnModel TxnSpec TxnLemmas TxnIdsProofs TxnFrame TxnRowIds TxnRewrite TxnExamples FlagModel FlagProofs.
Import ListNotations.
Local Open Scope N_scope.

(* Opening or checking out by number: exactly the versions with known reader flags. *)
Theorem C74_open_refuses_unknown : forall h v, match version_entry h v with
  | None => load_manifest h v = BErr
  | Some e => (known (m_rflags (e_man e)) -> load_manifest h v = BOk (e_man e)) /\ (~ known (m_rflags (e_man e)) -> load_manifest h v = BErr)
  end.
Proof. exact @open_refuses_unknown. Qed.
Print Assumptions C74_open_refuses_unknown.

(* A commit fails if a version after the one it read has unknown reader flags. *)
Theorem C74_commit_refuses_unknown_reader : forall h t file c v e, t_read t < v <= N.of_nat (length h) -> version_entry h v = Some e -> ~ known (m_rflags (e_man e)) -> commit_transaction h t file c = BErr.
Proof. exact @commit_refuses_unknown_reader. Qed.
Print Assumptions C74_commit_refuses_unknown_reader.

(* An insert through a handle on the latest version respects its writer flags (missing: other operations, older handles). *)
Theorem C74_insert_at_latest_partial : forall h cur e t file c, last_entry h = Some e -> cur = e_man e -> ~ known (m_wflags (e_man e)) -> insert_commit h cur t file c = BErr.
Proof. exact @insert_at_latest_partial. Qed.
Print Assumptions C74_insert_at_latest_partial.

(* With known flags only, nothing is refused but conflicts. *)
Theorem C74_known_flags_no_refusal : forall h cur t file c, Forall (fun e => known (m_rflags (e_man e)) /\ known (m_wflags (e_man e))) h -> (exists e, In e h /\ cur = e_man e) ->
  Forall (fun e => conflicts_with (t_op t) (t_op (e_txn e)) = false) (skipn (N.to_nat (t_read t)) h) -> insert_commit h cur t file c = commit_on h t file c.
Proof. exact @known_flags_no_refusal. Qed.
Print Assumptions C74_known_flags_no_refusal.

(* Whatever it builds on, a commit writes known flags only. *)
Theorem C74_written_flags_known : forall h t file c m ix, wc_auto_flags c = true -> commit_on h t file c = BOk (m, ix) -> known (m_rflags m) /\ known (m_wflags m).
Proof. exact @written_flags_known. Qed.
Print Assumptions C74_written_flags_known.

(* checkout_latest hands out a version that must not be read. *)
Theorem C74_checkout_latest_refuted : exists h cur m, load_manifest h 1 = BOk cur /\ open_latest h = BErr /\ checkout_latest h cur = BOk m /\ ~ known (m_rflags m).
Proof. exact @checkout_latest_refuted. Qed.
Print Assumptions C74_checkout_latest_refuted.

(* A delete is committed on a version that must not be written to. *)
Theorem C74_delete_ignores_writer_flags_refuted : exists h cur t m ix e, last_entry h = Some e /\ open_latest h = BOk cur /\ t_read t = m_version cur /\ ~ known (m_wflags (e_man e)) /\ commit_transaction h t 9 dflt = BOk (m, ix) /\ m_wflags m = 0.
Proof. exact @delete_ignores_writer_flags_refuted. Qed.
Print Assumptions C74_delete_ignores_writer_flags_refuted.

(* So is an append through an older handle. *)
Theorem C74_append_from_older_handle_refuted : exists h cur t m ix e, last_entry h = Some e /\ load_manifest h 1 = BOk cur /\ t_read t = m_version cur /\ ~ known (m_wflags (e_man e)) /\ insert_commit h cur t 9 dflt = BOk (m, ix) /\ m_wflags m = 0.
Proof. exact @append_from_older_handle_refuted. Qed.
Print Assumptions C74_append_from_older_handle_refuted.
