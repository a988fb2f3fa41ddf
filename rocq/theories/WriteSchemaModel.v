(* The schema an append writes with: Schema::project_by_schema and Field::project_by_field,
   rust/lance-core/src/datatypes/{schema.rs:325-347,field.rs:566-646}, as called by
   rust/lance/src/dataset/write.rs:324-343.
   Simplifications: as in ProjModel; the data types of two leaves are the same when their
   logical types are (the text of a dictionary type also says whether it is ordered). *)
From Coq Require Import List Arith ZArith Bool String.
From Verif Require Import Lib ReadParamsModel SchemaModel ProjModel CmpModel.
Import ListNotations.
Open Scope list_scope.

(* is_primitive and is_binary_like, lance-arrow/src/lib.rs:70-73, of a logical type *)
Inductive leafcls := LPrim | LBin | LOther.
Definition cls (t : string) : leafcls :=
  if memS t ["string"; "binary"; "large_string"; "large_binary"]%string then LBin
  else if memS t ["bool"; "null"]%string || prefix "fixed_size_list:" t || prefix "fixed_size_binary:" t || prefix "dict:" t then LOther
  else LPrim.
(* the last three guards and the fallback, 578-593 and 620-645 *)
Definition leaf_by_field (take_self : bool) (f o : rfield) : outcome rfield :=
  match fkind f, fkind o with
  | KLeaf, KLeaf =>
      if String.eqb (a_type (r_attrs f)) (a_type (r_attrs o)) then Ok f
      else match cls (a_type (r_attrs f)), cls (a_type (r_attrs o)) with
           | LPrim, LPrim | LBin, LBin => Err
           | _, _ => if take_self then Ok f else Err
           end
  | _, _ => if take_self then Ok f else Err
  end.
(* Field::project_by_field 566-646, by recursion on the other field *)
Fixpoint f_by_field (take_self : bool) (o f : rfield) : outcome rfield :=
  match o with
  | RF ao co =>
      if negb (String.eqb (r_name f) (a_name ao)) then Err
      else if negb (dt_ok f && dt_ok o) then Panic
      else match fkind f, kind_of (a_type ao) with
           | KStruct, KStruct =>
               obnd ((fix go (l : list rfield) : outcome (list rfield) :=
                        match l with
                        | [] => Ok []
                        | x :: t => match lookup (r_name x) (r_children f) with
                                    | None => Err
                                    | Some c => obnd (f_by_field take_self x c) (fun c' => obnd (go t) (fun t' => Ok (c' :: t')))
                                    end
                        end) co) (fun c' => Ok (RF (r_attrs f) c'))
           | KList a, KList b =>
               if Bool.eqb a b
               then match r_children f, co with
                    | c :: _, x :: _ => obnd (f_by_field take_self x c) (fun c' => Ok (RF (r_attrs f) [c']))
                    | _, _ => Panic
                    end
               else leaf_by_field take_self f o
           | _, _ => leaf_by_field take_self f o
           end
  end.
(* Schema::project_by_schema 325-347; a name is looked up at the top level *)
Fixpoint project_by_schema (on_missing_error take_self : bool) (l other : list rfield) : outcome (list rfield) :=
  match other with
  | [] => Ok []
  | x :: t => match lookup (r_name x) l with
              | Some f => obnd (f_by_field take_self x f) (fun f' => obnd (project_by_schema on_missing_error take_self l t) (fun t' => Ok (f' :: t')))
              | None => if on_missing_error then Err else project_by_schema on_missing_error take_self l t
              end
  end.
(* write_fragments_internal, write.rs:324-343: the options of the check, and the schema of the files *)
Definition append_options : copts := {| c_meta := false; c_dict := true; c_ids := false; c_null := NIgnore; c_missing := true; c_order := true |}.
Definition write_schema (dataset data : rschema) : outcome (list rfield) :=
  match check_compatible append_options data dataset with
  | Compatible => project_by_schema true false (rs_fields dataset) (rs_fields data)
  | _ => Err
  end.
