(* C78: ids of new fields. *)
From Coq Require Import List Arith NArith ZArith Bool Permutation Sorted.
From Verif Require Import Lib SchemaModel SchemaProofs.
Import ListNotations.
Local Open Scope Z_scope.

(* fields keep the ids they have; new ones get fresh, distinct ids above every id in the schema and above the given maximum *)
Theorem C78_set_field_id : forall mx l l', set_field_id mx l = l' ->
  NoDup (given (r_field_ids l)) ->
  Forall (placed (-1)) l' /\ NoDup (r_field_ids l') /\ validate_ids l' = true /\ map shape l' = map shape l /\
  forall m, (m = -1 \/ In m (r_field_ids l) \/ mx = Some m) -> Forall2 (fresh_above m) (r_field_ids l) (r_field_ids l').
Proof. exact @set_field_id_ok. Qed.
Print Assumptions C78_set_field_id.
