(* C100: Dataset::merge; C101: columns of nulls. *)
From Coq Require Import List Arith NArith ZArith Bool Permutation Sorted.
From Verif Require Import Lib RowIdsModel SerdeModel ReadParamsModel DeletionModel FragReadModel SchemaModel SchemaProofs ProjModel AddColsModel AddColsProofs AlterModel AlterProofs JoinModel JoinProofs JoinData NullModel NullProofs.
Import ListNotations.
From Coq Require Import String.
Open Scope list_scope.
Local Open Scope nat_scope.

(* every accepted merge adds the other columns by a left join (null keys equal), one row per key for all fragments, under fresh field ids *)
Theorem C100_merge_sound_partial : forall u old mx fs left_on right bs right_on order gs final,
  valid old -> Forall (placed (-1)) old -> right_ok right bs -> Forall afrag_ok fs -> 0 < batch_rows u -> interleaving (slots bs) order ->
  merge_dataset u old mx fs left_on right bs right_on order = Ok (gs, final) ->
  exists out h, added right_on right out /\ extended old mx out final /\ (forall k, join_row right_on right bs out k (h k)) /\ Forall2 (computed h) fs gs /\
    forall f o, In f fs -> is_live f o -> nulls_allowed out (h (af_row f o)).
Proof. exact @merge_sound. Qed.
Print Assumptions C100_merge_sound_partial.

(* with unique keys the order of the insertions does not matter *)
Theorem C100_merge_order_free_partial : forall u old mx fs left_on right bs right_on order order',
  right_ok right bs -> unique_keys right_on right bs -> interleaving (slots bs) order -> interleaving (slots bs) order' ->
  merge_dataset u old mx fs left_on right bs right_on order = merge_dataset u old mx fs left_on right bs right_on order'.
Proof. exact @merge_order_free. Qed.
Print Assumptions C100_merge_order_free_partial.

(* with unique keys, v2 files and a column at the top: accepted exactly if every fragment has a row in its first batch and nulls only come where column and type allow them *)
Theorem C100_merge_total_partial : forall u old mx fs left_on right bs right_on order t out,
  valid old -> Forall (placed (-1)) old -> right_ok right bs -> unique_keys right_on right bs -> Forall afrag_ok fs -> 0 < batch_rows u -> u_legacy u = None -> interleaving (slots bs) order ->
  left_column old left_on t -> right_columns old right right_on t -> bs <> [] -> added right_on right out ->
  ((exists gs final, merge_dataset u old mx fs left_on right bs right_on order = Ok (gs, final)) <->
   Forall (first_live (batch_rows u)) fs /\
   forall f o vals, In f fs -> is_live f o -> join_row right_on right bs out (af_row f o) vals -> nulls_allowed out vals).
Proof. exact @merge_total. Qed.
Print Assumptions C100_merge_total_partial.

(* with unique keys a left join has one result *)
Theorem C100_join_unique_partial : forall right bs on out, right_ok right bs -> unique_keys on right bs -> added on right out ->
  forall k v w, join_row on right bs out k v -> join_row on right bs out k w -> v = w.
Proof. exact @join_unique. Qed.
Print Assumptions C100_join_unique_partial.

(* a null key takes the row with a null key *)
Theorem C100_merge_null_keys_refuted : exists u old mx fs left_on right bs right_on order gs final f g o vals v,
  valid old /\ Forall (placed (-1)) old /\ right_ok right bs /\ Forall afrag_ok fs /\ 0 < batch_rows u /\ interleaving (slots bs) order /\ unique_keys right_on right bs /\
  merge_dataset u old mx fs left_on right bs right_on order = Ok (gs, final) /\ nth_error fs 0 = Some f /\ nth_error gs 0 = Some g /\
  is_live f o /\ af_row f o = None /\ uf_col g = Some vals /\ nth_error vals o = Some [Some v].
Proof. exact @merge_null_keys_refuted. Qed.
Print Assumptions C100_merge_null_keys_refuted.

(* a key in two batches: the row taken depends on the threads *)
Theorem C100_merge_duplicates_refuted : exists u old mx fs left_on right bs right_on order order' gs gs' final final',
  valid old /\ right_ok right bs /\ Forall afrag_ok fs /\ 0 < batch_rows u /\ interleaving (slots bs) order /\ interleaving (slots bs) order' /\
  merge_dataset u old mx fs left_on right bs right_on order = Ok (gs, final) /\ merge_dataset u old mx fs left_on right bs right_on order' = Ok (gs', final') /\ gs <> gs'.
Proof. exact @merge_duplicates_refuted. Qed.
Print Assumptions C100_merge_duplicates_refuted.

(* a row without a match is refused for a nullable integer column *)
Theorem C100_merge_unmatched_refuted : exists u old mx fs left_on right bs right_on order,
  valid old /\ right_ok right bs /\ unique_keys right_on right bs /\ Forall afrag_ok fs /\ 0 < batch_rows u /\ interleaving (slots bs) order /\ Forall (first_live (batch_rows u)) fs /\
  left_column old left_on "int32" /\ right_columns old right right_on "int32" /\ Forall (fun f => a_null (r_attrs f) = true) right /\
  merge_dataset u old mx fs left_on right bs right_on order = Err.
Proof. exact @merge_unmatched_refuted. Qed.
Print Assumptions C100_merge_unmatched_refuted.

(* joining on a field of a struct panics *)
Theorem C100_merge_nested_refuted : exists u old mx fs left_on right bs right_on order,
  valid old /\ right_ok right bs /\ Forall afrag_ok fs /\ schema_field old left_on <> None /\ merge_dataset u old mx fs left_on right bs right_on order = Panic.
Proof. exact @merge_nested_refuted. Qed.
Print Assumptions C100_merge_nested_refuted.

(* no fragment changes, the new fields come last under fresh ids and read as null, the old ones are as before *)
Theorem C101_nulls_sound_partial : forall {V} (null : V) legacy old fs out gs final, valid old -> Forall (placed (-1)) old -> NoDup (map r_name out) ->
  add_nulls legacy old fs out = Ok (gs, final) ->
  gs = fs /\ extended old (max_field_id old fs) out final /\
  (forall f g o, In f gs -> In g (fields_pre_order final) -> ~ In g (fields_pre_order old) -> column null f (r_id g) o = null) /\
  forall g, In g (fields_pre_order old) -> In g (fields_pre_order final).
Proof. exact @nulls_sound. Qed.
Print Assumptions C101_nulls_sound_partial.

(* accepted exactly if the names are new, everything is nullable and no file is legacy *)
Theorem C101_nulls_total_partial : forall {V} legacy old (fs : list (cfrag V)) out, valid old -> 
  ((exists r, add_nulls legacy old fs out = Ok r) <->
   (forall f g, In f old -> In g out -> r_name f <> r_name g) /\ (forall g, In g (fields_pre_order out) -> a_null (r_attrs g) = true) /\
   forall f x, In f fs -> In x (cf_files f) -> legacy x = false).
Proof. exact @nulls_total. Qed.
Print Assumptions C101_nulls_total_partial.

(* a name with a dot is accepted and then names a field of another column *)
Theorem C101_nulls_dotted_refuted : exists (old : list rfield) (fs : list (cfrag Z)) out final g,
  valid old /\ Forall (placed (-1)) old /\ add_nulls (fun _ => false) old fs out = Ok (fs, final) /\ In g final /\ ~ In g old /\ valid old /\ ~ valid final /\
  schema_field final (r_name g) <> Some g /\ schema_field final (r_name g) <> None.
Proof. exact @nulls_dotted_refuted. Qed.
Print Assumptions C101_nulls_dotted_refuted.

(* of two columns of one name only one is added *)
Theorem C101_nulls_duplicate_refuted : exists (old : list rfield) (fs : list (cfrag Z)) out final,
  valid old /\ add_nulls (fun _ => false) old fs out = Ok (fs, final) /\ List.length final < List.length old + List.length out.
Proof. exact @nulls_duplicate_refuted. Qed.
Print Assumptions C101_nulls_duplicate_refuted.
