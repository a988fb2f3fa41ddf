(* C92: projections of schemas.  C93: dropping columns. *)
From Coq Require Import List Arith NArith ZArith Bool Permutation Sorted.
From Verif Require Import Lib ReadParamsModel SchemaModel SchemaProofs ProjModel ProjProofs ProjIds ProjDrop.
Import ListNotations.
From Coq Require Import String.
Local Notation prefix := ProjProofs.prefix.
Open Scope list_scope.
Local Open Scope nat_scope.

(* Schema::project on existing columns selects exactly them; missing: columns whose child does not exist *)
Theorem C92_project_exact_partial : forall l err cols, schema_well l -> Forall (fun c => exists f, at_path l c f) cols ->
  exists r, do_project err l cols = Ok r /\ schema_well r /\ forall p a, has r p a <-> has l p a /\ selected cols p.
Proof. exact @project_exact. Qed.
Print Assumptions C92_project_exact_partial.

(* Schema::field finds the field at the end of a path *)
Theorem C92_field_at_path : forall p l f, schema_well l -> (field_at l p = Some f <-> at_path l p f).
Proof. exact @field_at_path. Qed.
Print Assumptions C92_field_at_path.

(* project_by_ids keeps exactly what leads to an id or is below one with no id below it *)
Theorem C92_by_ids_exact : forall ids all l, schema_well l -> forall p a, has (project_by_ids ids all l) p a <-> has l p a /\ keeps ids all l p.
Proof. exact @by_ids_exact. Qed.
Print Assumptions C92_by_ids_exact.

(* and the result is a schema *)
Theorem C92_by_ids_well : forall ids all l, schema_well l -> schema_well (project_by_ids ids all l).
Proof. exact @by_ids_well. Qed.
Print Assumptions C92_by_ids_well.

(* what Projection::union_columns selects *)
Theorem C92_union_columns_are : forall err l cols, schema_well l -> NoDup (r_field_ids l) -> Forall (fun c => exists f, at_path l c f) cols ->
  exists ids, union_columns err l [] cols = Ok ids /\
    forall p a, has (to_schema l ids) p a <-> has l p a /\
      ((exists c, In c cols /\ prefix p c) \/ (exists c, In c cols /\ prefix c p /\ forall c', In c' cols -> prefix c c' -> c' = c)).
Proof. exact @union_columns_are. Qed.
Print Assumptions C92_union_columns_are.

(* it selects the columns; missing: a column together with one inside it *)
Theorem C92_union_columns_exact_partial : forall err l cols, schema_well l -> NoDup (r_field_ids l) -> Forall (fun c => exists f, at_path l c f) cols ->
  (forall c c', In c cols -> In c' cols -> prefix c c' -> c' = c) ->
  exists ids, union_columns err l [] cols = Ok ids /\ forall p a, has (to_schema l ids) p a <-> has l p a /\ selected cols p.
Proof. exact @union_columns_exact. Qed.
Print Assumptions C92_union_columns_exact_partial.

(* adding a projected schema to a projection selects the columns of both *)
Theorem C92_union_schema_exact : forall l cols1 cols2 r1 r2, schema_well l -> NoDup (r_field_ids l) -> Forall (fun c => exists f, at_path l c f) (cols1 ++ cols2) ->
  projects l cols1 r1 -> projects l cols2 r2 -> projects l (cols1 ++ cols2) (to_schema l (union_schema (r_field_ids r1) r2)).
Proof. exact @union_schema_exact. Qed.
Print Assumptions C92_union_schema_exact.

(* subtracting leaves the leaves of the first that are not in the second *)
Theorem C92_subtract_schema_exact : forall l cols1 cols2 r1 r2, schema_well l -> NoDup (r_field_ids l) -> Forall (fun c => exists f, at_path l c f) cols1 ->
  projects l cols1 r1 -> projects l cols2 r2 ->
  forall p a, leaf (to_schema l (subtract_schema (r_field_ids r1) r2)) p a <-> leaf l p a /\ selected cols1 p /\ ~ selected cols2 p.
Proof. exact @subtract_schema_exact. Qed.
Print Assumptions C92_subtract_schema_exact.

(* a column and one inside it *)
Theorem C92_union_columns_refuted : exists l cols ids p a, schema_well l /\ NoDup (r_field_ids l) /\ Forall (fun c => exists f, at_path l c f) cols /\
  union_columns true l [] cols = Ok ids /\ has l p a /\ selected cols p /\ ~ has (to_schema l ids) p a.
Proof. exact @union_columns_refuted. Qed.
Print Assumptions C92_union_columns_refuted.

(* a missing child is no error *)
Theorem C92_project_missing_refuted : exists l cols r, schema_well l /\ (exists c, In c cols /\ forall f, ~ at_path l c f) /\ do_project true l cols = Ok r /\ exists a, has r ["a"%string] a /\ a_type a = "struct"%string /\ leaf r ["a"%string] a.
Proof. exact @project_missing_refuted. Qed.
Print Assumptions C92_project_missing_refuted.

(* a missing child of a list panics *)
Theorem C92_project_panic_refuted : exists l cols, schema_well l /\ do_project true l cols = Panic.
Proof. exact @project_panic_refuted. Qed.
Print Assumptions C92_project_panic_refuted.

(* exactly the leaves under a dropped column are gone; missing: columns inside a list at the top *)
Theorem C93_drop_columns_exact_partial : forall l cols r, schema_well l -> drop_columns l cols = Ok r ->
  (forall c n q f, In c cols -> c = n :: q -> at_path l [n] f -> fkind f = KStruct \/ q = []) ->
  schema_well r /\ (forall p a, has r p a -> has l p a) /\ forall p a, leaf r p a <-> leaf l p a /\ ~ exists c, In c cols /\ prefix c p.
Proof. exact @drop_columns_exact. Qed.
Print Assumptions C93_drop_columns_exact_partial.

(* when dropping succeeds *)
Theorem C93_drop_columns_ok : forall l cols, schema_well l -> (exists r, drop_columns l cols = Ok r) <->
  (Forall (fun c => exists f, at_path l c f /\ a_storage (r_attrs f) = SDefault) cols /\ forall o, do_project true l cols = Ok o -> exclude l o <> []).
Proof. exact @drop_columns_ok. Qed.
Print Assumptions C93_drop_columns_ok.

(* Schema::exclude removes exactly the leaves of the other schema *)
Theorem C93_exclude_exact : forall l o, schema_well l -> subs o l ->
  (forall f y, In f l -> In y o -> r_name y = r_name f -> fkind f = KStruct \/ forall p a, has [f] p a -> has [y] p a) ->
  forall p a, leaf (exclude l o) p a <-> leaf l p a /\ forall b, ~ has o p b.
Proof. exact @exclude_exact. Qed.
Print Assumptions C93_exclude_exact.

(* dropping a column inside a list drops the list *)
Theorem C93_drop_columns_refuted : exists l cols r p a, schema_well l /\ drop_columns l cols = Ok r /\ leaf l p a /\ (forall c, In c cols -> ~ prefix c p) /\ ~ leaf r p a.
Proof. exact @drop_columns_refuted. Qed.
Print Assumptions C93_drop_columns_refuted.
