(* Where the feature flags of a stored manifest are looked at.  The table's versions are a list of
   entries, which other writers (of a newer library) may have made, so no invariant is assumed.
   Not modelled: the session's cache of transactions already read (a version found there was
   loaded, and so checked, before), retries (each is the same function on a longer list). *)
From Coq Require Import List Arith NArith ZArith Bool.
From Verif Require Import Lib AMap TreeMapModel SerdeModel TxnModel.
Import ListNotations.
Local Open Scope N_scope.

(* rust/lance/src/dataset.rs:357-418 load_manifest, used to open a dataset and by checkout_version *)
Definition load_manifest (h : list entry) (v : N) : bres manifest :=
  match version_entry h v with
  | Some e => if can_read_dataset (m_rflags (e_man e)) then BOk (e_man e) else BErr
  | None => BErr
  end.
(* dataset.rs: opening a dataset (builder.rs load): the latest version through load_manifest *)
Definition open_latest (h : list entry) : bres manifest := load_manifest h (N.of_nat (length h)).
(* dataset.rs:325-330 and 545-566: no check; the handle's own manifest is kept if it is the latest *)
Definition checkout_latest (h : list entry) (cur : manifest) : bres manifest :=
  if m_version cur =? N.of_nat (length h) then BOk cur
  else match last_entry h with Some e => BOk (e_man e) | None => BErr end.
(* rust/lance/src/io/commit.rs:77-106 *)
Definition read_dataset_transaction_file (h : list entry) (v : N) : bres txn :=
  bbind (load_manifest h v) (fun _ => match version_entry h v with Some e => BOk (e_txn e) | None => BErr end).
(* commit.rs:739-776: every transaction since the version read *)
Fixpoint check_others (h : list entry) (t : txn) (vs : list N) : bres unit :=
  match vs with
  | [] => BOk tt
  | v :: r => bbind (read_dataset_transaction_file h v) (fun o => if conflicts_with (t_op t) (t_op o) then BErr else check_others h t r)
  end.
(* commit.rs:698-878, one attempt that meets no other writer *)
Definition commit_transaction (h : list entry) (t : txn) (file : N) (c : wconfig) : bres (manifest * list index) :=
  bbind (check_others h t (nrange (t_read t + 1) (length h - N.to_nat (t_read t)))) (fun _ => commit_on h t file c).
(* rust/lance/src/dataset/write/insert.rs:297-310: an insert looks at its handle's flags first *)
Definition insert_commit (h : list entry) (cur : manifest) (t : txn) (file : N) (c : wconfig) : bres (manifest * list index) :=
  if can_write_dataset (m_wflags cur) then commit_transaction h t file c else BErr.
