(* C92: operations on projections. *)
From Coq Require Import List Arith NArith ZArith Bool Permutation Sorted.
From Verif Require Import Lib ReadParamsModel SchemaModel SchemaProofs ProjModel ProjProofs ProjIds ProjDrop ProjSect.
Import ListNotations.
From Coq Require Import String.
Local Notation prefix := ProjProofs.prefix.
Open Scope list_scope.
Local Open Scope nat_scope.

(* The intersection selects the columns of both. Missing: columns beside each other in one struct, refuted below. *)
Theorem C92_intersect_exact_partial : forall l cols1 cols2 r1 r2, schema_well l -> NoDup (r_field_ids l) -> Forall (fun c => exists f, at_path l c f) (cols1 ++ cols2) ->
  (forall n c1 c2, In (n :: c1) cols1 -> In (n :: c2) cols2 -> prefix c1 c2 \/ prefix c2 c1) ->
  projects l cols1 r1 -> projects l cols2 r2 ->
  forall p a, has (to_schema l (intersect (r_field_ids r1) (r_field_ids r2))) p a <-> has l p a /\ selected cols1 p /\ selected cols2 p.
Proof. exact @intersect_exact. Qed.
Print Assumptions C92_intersect_exact_partial.

(* Two children of a struct have nothing in common, but their intersection selects the whole struct. *)
Theorem C92_intersect_refuted : exists l cols1 cols2 r1 r2 p a, schema_well l /\ NoDup (r_field_ids l) /\ Forall (fun c => exists f, at_path l c f) (cols1 ++ cols2) /\
  do_project true l cols1 = Ok r1 /\ do_project true l cols2 = Ok r2 /\
  leaf (to_schema l (intersect (r_field_ids r1) (r_field_ids r2))) p a /\ ~ selected cols2 p.
Proof. exact @intersect_refuted. Qed.
Print Assumptions C92_intersect_refuted.

(* The union of projections selects the columns of both. *)
Theorem C92_union_projection : forall l cols1 cols2 r1 r2, schema_well l -> NoDup (r_field_ids l) -> Forall (fun c => exists f, at_path l c f) (cols1 ++ cols2) ->
  projects l cols1 r1 -> projects l cols2 r2 -> projects l (cols1 ++ cols2) (to_schema l (union_projection (r_field_ids r1) (r_field_ids r2))).
Proof. exact @union_projection_is. Qed.
Print Assumptions C92_union_projection.

(* Subtracting a projection leaves the leaves of the first that are not in the second. *)
Theorem C92_subtract_projection : forall l cols1 cols2 r1 r2, schema_well l -> NoDup (r_field_ids l) -> Forall (fun c => exists f, at_path l c f) cols1 ->
  projects l cols1 r1 -> projects l cols2 r2 ->
  forall p a, leaf (to_schema l (subtract_projection (r_field_ids r1) (r_field_ids r2))) p a <-> leaf l p a /\ selected cols1 p /\ ~ selected cols2 p.
Proof. exact @subtract_projection_is. Qed.
Print Assumptions C92_subtract_projection.
