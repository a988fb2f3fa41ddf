(* Projections of schemas: rust/lance-core/src/datatypes/{schema.rs,field.rs}, and the schema
   side of drop_columns (rust/lance/src/dataset/schema_evolution.rs).
   Simplifications: a column reference is its list of components (`split('.')`, never empty);
   `Schema::field` on a top-level name is a lookup by name (names without '.', as
   Schema::validate demands); the data types of leaves are compared by logical type (the types
   merged by do_project come from one field); a set of ids is a list; schema metadata is
   dropped. *)
From Coq Require Import List Arith ZArith Bool String.
From Verif Require Import Lib ReadParamsModel SchemaModel.
Import ListNotations.
Open Scope list_scope.

(* datatypes.rs:57-68 with field.rs:144-156 (data_type) *)
Inductive kind := KStruct | KList (large : bool) | KLeaf.
Definition kind_of (t : string) : kind :=
  if String.eqb t "struct" then KStruct
  else if String.eqb t "list" || String.eqb t "list.struct" then KList false
  else if String.eqb t "large_list" || String.eqb t "large_list.struct" then KList true
  else KLeaf.
Definition fkind (f : rfield) : kind := kind_of (a_type (r_attrs f)).
(* data_type() indexes children[0] of every list below the field, through ArrowField::from *)
Fixpoint dt_ok (f : rfield) : bool :=
  match f with RF a c => (match kind_of (a_type a), c with KList _, [] => false | _, _ => true end) && forallb dt_ok c end.

(* field.rs:387-389 child, schema.rs:374-380 on a top-level name *)
Definition lookup (n : string) (l : list rfield) : option rfield := find (fun f => String.eqb (r_name f) n) l.
(* Schema::field 374-380 with Field::sub_field 464-474 *)
Fixpoint field_at (l : list rfield) (p : list string) : option rfield :=
  match p with
  | [] => None
  | n :: p' => match lookup n l with
               | None => None
               | Some f => match p' with [] => Some f | _ => field_at (r_children f) p' end
               end
  end.

(* Field::project 476-504 *)
Fixpoint f_project (p : list string) (f : rfield) : rfield :=
  match p with
  | [] => f
  | n :: p' => RF (r_attrs f) (match lookup n (r_children f) with Some c => [f_project p' c] | None => [] end)
  end.

Definition obnd {A B} (x : outcome A) (f : A -> outcome B) : outcome B := match x with Ok a => f a | Err => Err | Panic => Panic end.
(* find by name, merge into it, or push at the end: schema.rs:183-187, field.rs:772-778 *)
Fixpoint upsert (m : rfield -> outcome rfield) (x : rfield) (l : list rfield) : outcome (list rfield) :=
  match l with
  | [] => Ok [x]
  | c :: t => if String.eqb (r_name c) (r_name x) then obnd (m c) (fun c' => Ok (c' :: t))
              else obnd (upsert m x t) (fun t' => Ok (c :: t'))
  end.
(* Field::merge 769-807: [o] is merged into [s] *)
Fixpoint merge_f (o s : rfield) : outcome rfield :=
  match o, s with
  | RF ao co, RF a c =>
      if negb (dt_ok o && dt_ok s) then Panic else
      match kind_of (a_type a), kind_of (a_type ao) with
      | KStruct, KStruct =>
          obnd ((fix go (l : list rfield) (acc : list rfield) : outcome (list rfield) :=
                   match l with [] => Ok acc | x :: t => obnd (upsert (merge_f x) x acc) (go t) end) co c) (fun c' => Ok (RF a c'))
      | KList x, KList y =>
          if Bool.eqb x y
          then match c, co with s0 :: t, o0 :: _ => obnd (merge_f o0 s0) (fun s0' => Ok (RF a (s0' :: t))) | _, _ => Panic end
          else Err
      | _, _ => if String.eqb (a_type a) (a_type ao) then Ok s else Err
      end
  end.
(* do_project, schema.rs:176-202 *)
Fixpoint project_from (l : list rfield) (err : bool) (cols : list (list string)) (acc : list rfield) : outcome (list rfield) :=
  match cols with
  | [] => Ok acc
  | [] :: _ => Panic
  | (n :: p) :: t =>
      match lookup n l with
      | Some f => let x := f_project p f in obnd (upsert (merge_f x) x acc) (project_from l err t)
      | None => if err then Err else project_from l err t acc
      end
  end.
Definition do_project (err : bool) (l : list rfield) (cols : list (list string)) : outcome (list rfield) := project_from l err cols [].

Definition memZ (x : Z) (l : list Z) : bool := existsb (Z.eqb x) l.
(* Field::project_by_ids 546-563; filter_map is a flat_map here *)
Fixpoint f_by_ids (ids : list Z) (all : bool) (f : rfield) : list rfield :=
  match f with
  | RF a c =>
      let c' := flat_map (f_by_ids ids all) c in
      if memZ (a_id a) ids && ((match c' with [] => true | _ => false end) || all) then [RF a c]
      else match c' with [] => [] | _ => [RF a c'] end
  end.
(* Schema::project_by_ids 309-320 *)
Definition project_by_ids (ids : list Z) (all : bool) (l : list rfield) : list rfield := flat_map (f_by_ids ids all) l.

(* Schema::resolve 161-174, Field::resolve 648-662 *)
Fixpoint resolve (l : list rfield) (p : list string) : option (list rfield) :=
  match p with
  | [] => None
  | n :: p' => match lookup n l with
               | None => None
               | Some f => match p' with [] => Some [f] | _ => omap (cons f) (resolve (r_children f) p') end
               end
  end.
(* Projection 803-812: the ids, without the row id and address flags *)
(* union_column 832-851, union_columns 859-868 *)
Definition union_column (err : bool) (l : list rfield) (ids : list Z) (p : list string) : outcome (list Z) :=
  match resolve l p with
  | Some fs => Ok (ids ++ map r_id fs)
  | None => if err then Err else Ok ids
  end.
Fixpoint union_columns (err : bool) (l : list rfield) (ids : list Z) (cols : list (list string)) : outcome (list Z) :=
  match cols with [] => Ok ids | p :: t => obnd (union_column err l ids p) (fun ids' => union_columns err l ids' t) end.
(* to_schema 1006-1009 *)
Definition to_schema (l : list rfield) (ids : list Z) : list rfield := project_by_ids ids false l.
(* union_schema 904-919 and subtract_schema 985-998 on fields of the base schema *)
Definition union_schema (ids : list Z) (o : list rfield) : list Z := ids ++ r_field_ids o.
Definition subtract_schema (ids : list Z) (o : list rfield) : list Z := filter (fun i => negb (memZ i (r_field_ids o))) ids.
(* union_projection 922-927, subtract_projection 968-977, intersect 891-896 *)
Definition union_projection (a b : list Z) : list Z := a ++ b.
Definition subtract_projection (a b : list Z) : list Z := filter (fun i => negb (memZ i b)) a.
Definition intersect (a b : list Z) : list Z := filter (fun i => memZ i b) a.

(* Field::exclude 733-766; data_type().is_nested() of a field without children makes no
   difference: no children are left either way *)
Fixpoint f_exclude (f o : rfield) : option rfield :=
  match f with
  | RF a c =>
      match flat_map (fun x => match (match lookup (r_name x) (r_children o) with Some y => f_exclude x y | None => Some x end) with Some z => [z] | None => [] end) c with
      | [] => None
      | c' => Some (RF a c')
      end
  end.
(* Schema::exclude 350-371 *)
Definition exclude (l o : list rfield) : list rfield :=
  flat_map (fun f => match lookup (r_name f) o with
                     | Some y => match fkind f with KStruct => match f_exclude f y with Some z => [z] | None => [] end | _ => [] end
                     | None => [f]
                     end) l.
(* drop_columns, schema_evolution.rs:659-715, up to the commit *)
Definition drop_columns (l : list rfield) (cols : list (list string)) : outcome (list rfield) :=
  if negb (forallb (fun p => match field_at l p with Some f => storage_eqb (a_storage (r_attrs f)) SDefault | None => false end) cols) then Err
  else obnd (do_project true l cols) (fun o => match exclude l o with [] => Err | l' => Ok l' end).
