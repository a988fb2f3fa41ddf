(* C128: which columns of a file belong to which fields. *)
From Coq Require Import List Arith NArith ZArith Bool Permutation Sorted.
From Verif Require Import Lib ColMapModel ColMapProofs ColMapWhole.
Import ListNotations.
Local Open Scope nat_scope.

(* the writer gives each field its columns, in the order of the schema *)
Theorem C128_columns : forall s fs, Forall f_ok fs ->
  written s fs = Some (flat_map (columns_of s) fs, map_of (numbered 0 (flat_map (columns_of s) fs))).
Proof. exact @written_exact. Qed.
Print Assumptions C128_columns.

(* missing from C128: packed structs of version 2.1 and projections without a column, for which it is false *)
Theorem C128_ids_partial : forall s fs p, Forall f_ok fs -> NoDup (ids fs) -> Forall f_ok p -> NoDup (ids p) -> parts p fs -> (s = true -> no_packed true p) ->
  flat_map (columns_of s) p <> [] -> exists r, read_ids s fs p = Some r /\ right_columns s fs p r.
Proof. exact @ids_exact. Qed.
Print Assumptions C128_ids_partial.

(* the same, said of the leaves *)
Theorem C128_leaves_partial : forall s fs p, Forall f_ok fs -> NoDup (ids fs) -> Forall f_ok p -> NoDup (ids p) -> parts p fs -> no_packed s p -> flat_map (columns_of s) p <> [] ->
  exists r cols m, written s fs = Some (cols, m) /\ read_ids s fs p = Some r /\
  forall f, In f (pre_order p) -> at_kind (f_attrs f) = KLeaf -> exists i, In (f_id f, i) r /\ nth_error cols i = Some (col (f_attrs f) RLeaf) /\ forall j, In (f_id f, j) r -> j = i.
Proof. exact @leaves_exact. Qed.
Print Assumptions C128_leaves_partial.

(* missing: schemas for which reader and writer differ in what is packed, nested packed structs, empty structs of version 2.1 *)
Theorem C128_whole_partial : forall s fs, Forall f_ok fs -> plain s fs -> flat_map (columns_of s) fs <> [] -> exists r, read_whole s fs = Some r /\ right_columns s fs fs r.
Proof. exact @whole_read. Qed.
Print Assumptions C128_whole_partial.

(* missing: packed structs, and lists and structs of version 2.1 *)
Theorem C128_names_partial : forall s fs p, Forall f_ok fs -> NoDup (ids fs) -> Forall f_ok p -> NoDup (ids p) -> parts p fs -> one_each s fs -> p <> [] ->
  exists r, read_names s fs p = Some r /\ right_columns s fs p r.
Proof. exact @names_read. Qed.
Print Assumptions C128_names_partial.

(* the same for files taken over from elsewhere *)
Theorem C128_adopted_partial : forall s fs p, Forall f_ok fs -> NoDup (ids fs) -> Forall f_ok p -> NoDup (ids p) -> parts p fs -> one_each s fs ->
  (forall f, In f (pre_order fs) -> is_packed (f_attrs f) = false) -> p <> [] -> exists r, read_adopted s fs p = Some r /\ right_columns s fs p r.
Proof. exact @adopted_read. Qed.
Print Assumptions C128_adopted_partial.

Theorem C128_ids_packed_refuted : exists fs, ok_schema fs /\ (exists w, written true fs = Some w) /\ read_ids true fs fs = None.
Proof. exact @ids_packed_refuted. Qed.
Print Assumptions C128_ids_packed_refuted.

Theorem C128_ids_empty_refuted : exists fs p, ok_schema fs /\ ok_schema p /\ parts p fs /\ no_packed true fs /\ p <> [] /\ read_ids true fs p = None.
Proof. exact @ids_empty_refuted. Qed.
Print Assumptions C128_ids_empty_refuted.

Theorem C128_whole_new_key_refuted : exists fs, ok_schema fs /\ (exists r, read_ids false fs fs = Some r /\ right_columns false fs fs r) /\ read_whole false fs = None.
Proof. exact @whole_new_key_refuted. Qed.
Print Assumptions C128_whole_new_key_refuted.

Theorem C128_whole_case_refuted : exists fs, ok_schema fs /\ (exists r, read_ids false fs fs = Some r /\ right_columns false fs fs r) /\ read_whole false fs = None.
Proof. exact @whole_case_refuted. Qed.
Print Assumptions C128_whole_case_refuted.

Theorem C128_whole_nested_refuted : exists fs, ok_schema fs /\ (forall f, In f (pre_order fs) -> is_packed (f_attrs f) = packed20 (f_attrs f)) /\
  (exists r, read_ids false fs fs = Some r /\ right_columns false fs fs r) /\ read_whole false fs = None /\ read_whole true fs = None.
Proof. exact @whole_nested_refuted. Qed.
Print Assumptions C128_whole_nested_refuted.

Theorem C128_whole_empty_refuted : exists fs, ok_schema fs /\ no_packed true fs /\ (exists r, read_ids true fs fs = Some r /\ right_columns true fs fs r) /\ read_whole true fs = None.
Proof. exact @whole_empty_refuted. Qed.
Print Assumptions C128_whole_empty_refuted.

Theorem C128_adopted_21_refuted : wrong true read_adopted.
Proof. exact @adopted_21_refuted. Qed.
Print Assumptions C128_adopted_21_refuted.

Theorem C128_adopted_20_refuted : wrong false read_adopted.
Proof. exact @adopted_20_refuted. Qed.
Print Assumptions C128_adopted_20_refuted.

Theorem C128_names_21_refuted : wrong true read_names.
Proof. exact @names_21_refuted. Qed.
Print Assumptions C128_names_21_refuted.

Theorem C128_names_20_refuted : wrong false read_names.
Proof. exact @names_20_refuted. Qed.
Print Assumptions C128_names_20_refuted.
