(* add_columns with NewColumnTransform::AllNulls: rust/lance/src/dataset/schema_evolution.rs
   add_columns_to_fragments 137-149, 244-284, 287-290.
   Simplifications: whether a data file has the legacy version is a parameter; data files as in
   AlterModel; schema metadata is left out. *)
From Coq Require Import List Arith NArith ZArith Bool String.
From Verif Require Import Lib RowIdsModel SerdeModel ReadParamsModel DeletionModel SchemaModel ProjModel AddColsModel AlterModel JoinModel.
Import ListNotations.
Open Scope list_scope.

(* check_names 139-149 *)
Definition names_clash (old out : list rfield) : bool := existsb (fun f => existsb (fun n => String.eqb n (r_name f)) (map r_name out)) old.
(* Schema::all_fields_nullable schema.rs:566-568 *)
Definition all_nullable (l : list rfield) : bool := forallb (fun f => a_null (r_attrs f)) (fields_pre_order l).
Definition add_nulls {V} (legacy : afile V -> bool) (old : list rfield) (fs : list (cfrag V)) (out : list rfield) : outcome (list (cfrag V) * list rfield) :=
  if names_clash old out then Err
  else if negb (all_nullable out) then Err
  else if existsb (fun f => existsb legacy (cf_files f)) fs then Err
  else obnd (schema_merge old out) (fun s => Ok (fs, set_field_id (Some (max_field_id old fs)) s)).
