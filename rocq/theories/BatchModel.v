(* Committing several transactions as one: rust/lance/src/dataset/write/commit.rs:350-408
   (CommitBuilder::execute_batch).  Blob operations are not modelled. *)
From Coq Require Import List Arith NArith ZArith Bool.
From Verif Require Import Lib AMap TxnModel.
Import ListNotations.
Local Open Scope N_scope.

Definition appended_fragments (t : txn) : list fragment := match t_op t with Append l => l | _ => [] end.
Definition is_append (t : txn) : bool := match t_op t with Append _ => true | _ => false end.
(* 357-405: the merged transaction; [uuid] is generated *)
Definition merge_batch (ts : list txn) (uuid : N) : bres txn :=
  match ts with
  | [] => BErr
  | t :: rest =>
      if existsb (fun t => negb (is_append t)) ts then BErr
      else BOk {| t_read := fold_left (fun acc u => N.min acc (t_read u)) rest (t_read t); t_uuid := uuid;
                  t_op := Append (flat_map appended_fragments ts); t_tag := None |}
  end.
