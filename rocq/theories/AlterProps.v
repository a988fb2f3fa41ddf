(* C98, C99: altering columns. *)
From Coq Require Import List Arith NArith ZArith Bool Permutation Sorted.
From Verif Require Import Lib AMap RowIdsModel SerdeModel ReadParamsModel DeletionModel DeletionProofs FragReadModel SchemaModel SchemaProofs ProjModel AddColsModel AddColsProofs AlterModel AlterProofs AlterData.
Import ListNotations.
From Coq Require Import String.
Open Scope list_scope.
Local Open Scope Z_scope.

(* names and nullability only: exactly the wished schema if the alterations are allowed and it is valid, else rejected *)
Theorem C98_alter_labels_partial : forall castable next0 old als, NoDup (r_field_ids old) -> 0 <= next0 -> (forall i, In i (r_field_ids old) -> i < next0) ->
  Forall (fun al => al_type al = None) als ->
  let new := map (edited (wish al_rename old als) (wish al_null old als) (fun _ => None)) old in
  (Forall (allowed castable old) als -> valid new -> alter_schema castable next0 old als = Ok (new, [])) /\
  (~ Forall (allowed castable old) als \/ ~ valid new -> alter_schema castable next0 old als = Err).
Proof. exact @alter_labels. Qed.
Print Assumptions C98_alter_labels_partial.

(* with changes of type: these fields are replaced, under fresh ids; all others keep their place, id and the rest *)
Theorem C98_alter_sound_partial : forall castable next0 old als new casts, NoDup (r_field_ids old) -> 0 <= next0 -> (forall i, In i (r_field_ids old) -> i < next0) ->
  (forall al t, In al als -> al_type al = Some t -> unset t) -> alter_schema castable next0 old als = Ok (new, casts) ->
  valid new /\ exists sw, new = map (edited (wish al_rename old als) (wish al_null old als) sw) old /\
  (forall i, sw i <> None <-> typed old als i) /\
  (forall i f, sw i = Some f -> exists g t, In g (fields_pre_order old) /\ r_id g = i /\ wish al_type old als i = Some t /\
     replaces next0 (wish al_rename old als) (wish al_null old als) g t f) /\
  (forall i j f g k, sw i = Some f -> sw j = Some g -> In k (r_field_ids [f]) -> In k (r_field_ids [g]) -> i = j) /\
  (forall g f, In (g, f) casts <-> In g (fields_pre_order old) /\ sw (r_id g) = Some f).
Proof. exact @alter_sound. Qed.
Print Assumptions C98_alter_sound_partial.

(* what is accepted, and what a panic needs *)
Theorem C98_alter_exact_partial : forall castable next0 old als, NoDup (r_field_ids old) -> 0 <= next0 -> (forall i, In i (r_field_ids old) -> i < next0) ->
  (forall al t, In al als -> al_type al = Some t -> unset t) ->
  (alter_schema castable next0 old als = Panic -> ~ unhindered old als) /\
  (unhindered old als -> Forall (allowed castable old) als -> exists st, alter_loop castable old (old, [], next0) als = Ok st /\
     alter_schema castable next0 old als = (let '(l, c, _) := st in if validate l then Ok (l, c) else Err)) /\
  (~ Forall (allowed castable old) als -> forall r, alter_schema castable next0 old als <> Ok r) /\
  (~ unhindered old als -> forall r, alter_schema castable next0 old als <> Ok r).
Proof. exact @alter_exact. Qed.
Print Assumptions C98_alter_exact_partial.

(* a change of type followed by another alteration of the column: panic *)
Theorem C98_alter_twice_refuted : exists als, ok_args [ex_cfrag] ex_old als /\ alter_columns None isn keep_value any_cast (ex_u 2) ex_old [ex_cfrag] als = Panic.
Proof. exact @alter_twice_refuted. Qed.
Print Assumptions C98_alter_twice_refuted.

(* two children of a struct with one name: accepted *)
Theorem C98_alter_siblings_refuted : exists als new gs s, ok_args [ex_cfrag] ex_old als /\
  alter_columns None isn keep_value any_cast (ex_u 2) ex_old [ex_cfrag] als = Ok (new, gs) /\ In s new /\ ~ NoDup (map r_name (r_children s)).
Proof. exact @alter_siblings_refuted. Qed.
Print Assumptions C98_alter_siblings_refuted.

(* a change of type loses the metadata of the column *)
Theorem C98_alter_metadata_refuted : exists als new gs x n, ok_args [ex_cfrag] ex_old als /\
  alter_columns None isn keep_value any_cast (ex_u 2) ex_old [ex_cfrag] als = Ok (new, gs) /\
  nth_error ex_old 0 = Some x /\ nth_error new 0 = Some n /\ a_meta (r_attrs x) <> [] /\ a_meta (r_attrs n) = [].
Proof. exact @alter_metadata_refuted. Qed.
Print Assumptions C98_alter_metadata_refuted.

Local Open Scope nat_scope.
(* every remaining column keeps its values, every column of changed type holds the casts *)
Theorem C99_alter_data_sound_partial : forall {V} (null : V) is_null cast castable u old (fs : list (cfrag V)) als new gs,
  NoDup (r_field_ids old) -> NoDup (map r_name old) -> (forall al t, In al als -> al_type al = Some t -> unset t) -> 0 < batch_rows u -> Forall cfrag_ok fs ->
  alter_columns null is_null cast castable u old fs als = Ok (new, gs) -> Forall2 (altered_frag null cast old new als) fs gs.
Proof. exact @alter_data_sound. Qed.
Print Assumptions C99_alter_data_sound_partial.

(* nullable columns at the top whose values can be cast: it goes through *)
Theorem C99_alter_data_total_partial : forall {V} (null : V) is_null cast castable u old (fs : list (cfrag V)) als new casts,
  NoDup (r_field_ids old) -> NoDup (map r_name old) -> (forall al t, In al als -> al_type al = Some t -> unset t) -> 0 < batch_rows u -> u_legacy u = None -> Forall cfrag_ok fs ->
  alter_schema castable (max_field_id old fs + 1) old als = Ok (new, casts) ->
  (forall x n, In (x, n) casts -> In x old /\ a_null (r_attrs n) = true) ->
  (forall f, In f fs -> exists o, o < batch_rows u /\ row_live f o) ->
  (forall f x n o, In f fs -> In (x, n) casts -> row_live f o -> exists v, cast x n (column null f (r_id x) o) = Some v) ->
  exists gs, alter_columns null is_null cast castable u old fs als = Ok (new, gs).
Proof. exact @alter_data_total. Qed.
Print Assumptions C99_alter_data_total_partial.

(* a change of type inside a struct: panic *)
Theorem C99_alter_nested_refuted : exists als, ok_args [ex_cfrag] ex_old als /\ alter_columns None isn keep_value any_cast (ex_u 2) ex_old [ex_cfrag] als = Panic.
Proof. exact @alter_nested_refuted. Qed.
Print Assumptions C99_alter_nested_refuted.

(* two changes of type: accepted in one order, rejected in the other *)
Theorem C99_alter_order_refuted : exists x y new gs, ok_args [ex_cfrag] ex_old [x; y] /\
  alter_columns None isn keep_value any_cast (ex_u 2) ex_old [ex_cfrag] [x; y] = Ok (new, gs) /\
  alter_columns None isn keep_value any_cast (ex_u 2) ex_old [ex_cfrag] [y; x] = Err.
Proof. exact @alter_order_refuted. Qed.
Print Assumptions C99_alter_order_refuted.
