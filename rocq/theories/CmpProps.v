(* C94, C95: comparing schemas, and the schema an append writes with. *)
From Coq Require Import List Arith NArith ZArith Bool Permutation Sorted.
From Verif Require Import Lib ReadParamsModel SchemaModel SchemaProofs ProjModel CmpModel WriteSchemaModel ProjProofs CmpProofs WriteSchemaProofs.
Import ListNotations.
From Coq Require Import String.
Open Scope list_scope.
Local Open Scope nat_scope.

(* the comparison accepts exactly the compatible schemas *)
Theorem C94_compare_exact : forall o s e, tidy_schema s -> tidy_schema e -> (compare_schemas o s e = true <-> compatible_schemas o s e).
Proof. exact @compare_exact. Qed.
Print Assumptions C94_compare_exact.

(* a difference is found exactly when the schemas are not compatible *)
Theorem C94_explain_exact : forall o s e, tidy_schema s -> tidy_schema e -> (explain_difference o s e = None <-> compatible_schemas o s e).
Proof. exact @explain_exact. Qed.
Print Assumptions C94_explain_exact.

(* the check accepts, or rejects with at least one difference *)
Theorem C94_check_exact : forall o s e, tidy_schema s -> tidy_schema e ->
  (compatible_schemas o s e /\ check_compatible o s e = Compatible) \/
  (~ compatible_schemas o s e /\ exists l, l <> [] /\ check_compatible o s e = Mismatch l).
Proof. exact @check_exact. Qed.
Print Assumptions C94_check_exact.

(* a schema with known dictionaries is compatible with itself *)
Theorem C94_compare_refl : forall o s, tidy_schema s -> (c_dict o = true -> Forall dicts_known (rs_fields s)) -> compare_schemas o s s = true.
Proof. exact @compare_refl. Qed.
Print Assumptions C94_compare_refl.

(* two children of one name: rejected without a reason *)
Theorem C94_unknown_reason_refuted : exists s e,
  (exists a b c d x, s = {| rs_fields := [RF a [b; b]]; rs_meta := [] |} /\ e = {| rs_fields := [RF c [d]]; rs_meta := [] |} /\ b = RF x [] /\ d = b) /\
  check_compatible strict_opts s e = UnknownReason.
Proof. exact @unknown_reason_refuted. Qed.
Print Assumptions C94_unknown_reason_refuted.

(* a dictionary whose values were not loaded is not equal to itself *)
Theorem C94_self_refuted : exists s, tidy_schema s /\ exists l, check_compatible append_opts s s = Mismatch l.
Proof. exact @self_refuted. Qed.
Print Assumptions C94_self_refuted.

(* an append is rejected exactly when the schemas are not compatible, else it writes the columns of the data as the fields of the dataset *)
Theorem C95_write_schema_exact : forall e s, tidy_schema e -> tidy_schema s -> schema_well (rs_fields e) -> schema_well (rs_fields s) ->
  match write_schema e s with
  | Ok w => fits appendable (rs_fields e) (rs_fields s) /\ relabelleds (rs_fields e) (rs_fields s) w /\
            forall p a, has w p a <-> has (rs_fields e) p a /\ exists b, has (rs_fields s) p b
  | Err => ~ fits appendable (rs_fields e) (rs_fields s)
  | Panic => False
  end.
Proof. exact @write_schema_exact. Qed.
Print Assumptions C95_write_schema_exact.

(* with the ids of the dataset *)
Theorem C95_write_schema_ids : forall e s w p a, tidy_schema e -> tidy_schema s -> schema_well (rs_fields e) -> schema_well (rs_fields s) ->
  write_schema e s = Ok w -> has w p a -> has (rs_fields e) p a.
Proof. exact @write_schema_ids. Qed.
Print Assumptions C95_write_schema_ids.
