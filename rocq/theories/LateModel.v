(* Fetching further columns by row id: TakeExec of rust/lance/src/io/exec/take.rs, and what it uses of rust/lance-core/src/datatypes and
   rust/lance-arrow/src/lib.rs.
   A tree is a field together with its column: name, id, kind, data (the values of a leaf, the nulls of a struct, the offsets and nulls of
   a list) and children. Schemas and record batches are both lists of trees; functions on schemas do not look at the data and functions
   on batches do not look at the ids, which only say which column is which. Simplifications: types of fields with one name agree, names
   have no dots, nullability and metadata are left out, _rowaddr is not asked for, the rows fetched are those asked for, in order (C27). *)
From Coq Require Import String List Bool ZArith.
Import ListNotations.
Local Open Scope Z_scope.

Inductive kind := KLeaf | KStruct | KList.
Section Late.
  Context {D : Type}.
  Inductive tree := T (name : string) (id : Z) (k : kind) (d : D) (kids : list tree).
  Definition t_name (t : tree) : string := match t with T n _ _ _ _ => n end.
  Definition t_id (t : tree) : Z := match t with T _ i _ _ _ => i end.
  Definition t_kind (t : tree) : kind := match t with T _ _ k _ _ => k end.
  Definition t_kids (t : tree) : list tree := match t with T _ _ _ _ c => c end.
  Definition with_kids (t : tree) (c : list tree) : tree := match t with T n i k d _ => T n i k d c end.
  Definition memz (x : Z) (l : list Z) : bool := existsb (Z.eqb x) l.
  Definition lookup (n : string) (l : list tree) : option tree := find (fun f => String.eqb (t_name f) n) l.

  (* Field::project_by_ids 546-562, Schema::project_by_ids 309-318; filter_map is a flat_map; include_all_children is false *)
  Fixpoint by_ids (ids : list Z) (t : tree) : list tree :=
    match t with T n i k d c =>
      let c' := flat_map (by_ids ids) c in
      match c' with [] => if memz i ids then [T n i k d c] else [] | _ => [T n i k d c'] end
    end.
  (* fields_pre_order *)
  Fixpoint ids_of (t : tree) : list Z := match t with T _ i _ _ c => i :: flat_map ids_of c end.
  (* Field::project_by_field 566-640 for fields of the same type; None: an error *)
  Fixpoint by_field (o t : tree) : option tree :=
    match o with T _ _ ko _ co =>
      match t with T n i k d c =>
        match ko, k with
        | KStruct, KStruct => option_map (T n i k d)
            ((fix go (l : list tree) : option (list tree) := match l with
              | [] => Some []
              | x :: l' => match lookup (t_name x) c with
                | None => None
                | Some y => match by_field x y, go l' with Some a, Some b => Some (a :: b) | _, _ => None end
                end
              end) co)
        | KList, KList => match co, c with x :: _, y :: _ => option_map (fun a => T n i k d [a]) (by_field x y) | _, _ => None end
        | _, _ => Some t
        end
      end
    end.
  (* Schema::project_by_schema 327-351; OnMissing::Ignore *)
  Fixpoint by_schema (s : list tree) (l : list tree) : option (list tree) :=
    match l with
    | [] => Some []
    | x :: l' => match lookup (t_name x) s with
      | None => by_schema s l'
      | Some y => match by_field x y, by_schema s l' with Some a, Some b => Some (a :: b) | _, _ => None end
      end
    end.
  (* Projection::subtract_arrow_schema 953-966, subtract_schema 985-998 *)
  Definition subtract (s : list tree) (ids : list Z) (input : list tree) : option (list Z) :=
    option_map (fun o => filter (fun i => negb (memz i (flat_map ids_of o))) ids) (by_schema s input).
  (* Field::apply_projection 244-268; None: the assertion fails *)
  Fixpoint apply_projection (ids : list Z) (t : tree) : option (list tree) :=
    match t with T n i k d c =>
      match (fix go (l : list tree) : option (list tree) := match l with [] => Some [] | x :: l' => match apply_projection ids x, go l' with Some a, Some b => Some (a ++ b) | _, _ => None end end) c with
      | None => None
      | Some c' => match c' with
        | [] => if memz i ids then (match c with [] => Some [T n i k d []] | _ => None end) else Some []
        | _ => Some [T n i k d c']
        end
      end
    end.
  (* Field::merge_with_reference 184-242 *)
  Fixpoint merge_ref (r s o : tree) : tree :=
    match r with T _ _ _ _ rk =>
      with_kids s ((fix go (rk : list tree) (sk ok : list tree) : list tree :=
        match rk with
        | [] => []
        | rc :: rk' => match sk, ok with
          | sc :: sk', [] => if String.eqb (t_name sc) (t_name rc) then sc :: go rk' sk' [] else go rk' sk []
          | [], oc :: ok' => if String.eqb (t_name oc) (t_name rc) then oc :: go rk' [] ok' else go rk' [] ok
          | sc :: sk', oc :: ok' =>
              if String.eqb (t_name sc) (t_name rc) then (if String.eqb (t_name oc) (t_name rc) then merge_ref rc sc oc :: go rk' sk' ok' else sc :: go rk' sk' ok)
              else if String.eqb (t_name oc) (t_name rc) then oc :: go rk' sk ok' else go rk' sk ok
          | [], [] => []
          end
        end) rk (t_kids s) (t_kids o))
    end.
  (* TakeExec::calculate_output_schema 285-329 *)
  Fixpoint old_fields (s : list tree) (ids : list Z) (input : list tree) : option (list tree) :=
    match input with
    | [] => Some []
    | f :: l => match match lookup (t_name f) s with
                      | None => Some f
                      | Some df => match apply_projection ids df with None => None | Some [] => Some f | Some (pf :: _) => Some (merge_ref df f pf) end
                      end, old_fields s ids l with Some a, Some b => Some (a :: b) | _, _ => None end
    end.
  Definition output_schema (s : list tree) (ids : list Z) (input : list tree) : option (list tree) :=
    let added := flat_map (fun f => match lookup (t_name f) s with Some df => [t_id df] | None => [] end) input in
    option_map (fun o => o ++ filter (fun f => negb (memz (t_id f) added)) (flat_map (by_ids ids) s)) (old_fields s ids input).
  (* merge_with_schema of lance-arrow 657-727; a merged struct has no nulls (StructArray::from) *)
  Variable no_nulls : D.
  Definition is_struct (t : tree) : bool := match t_kind t with KStruct => true | _ => false end.
  Definition matching (f : tree) (l : list tree) : option tree := find (fun x => String.eqb (t_name x) (t_name f) && Bool.eqb (is_struct x) (is_struct f)) l.
  Fixpoint merge_field (f : tree) (l r : list tree) : list tree :=
    match f with T n i k d c =>
      match matching f l, matching f r with
      | None, Some y => [y]
      | Some x, None => [x]
      | Some x, Some y => match k with
        | KStruct => [T n i k no_nulls (flat_map (fun g => merge_field g (t_kids x) (t_kids y)) c)]
        | _ => [x]
        end
      | None, None => []
      end
    end.
  Definition merge_with_schema (l r fields : list tree) : list tree := flat_map (fun f => merge_field f l r) fields.
  (* TakeExec::try_new 227-274 and Take::take_batch 113-136: the batch that comes out for a batch of the input; the dataset is full;
     the assertion on _rowid and _rowaddr is left out; None: an error or a panic *)
  Definition take_exec (full : list tree) (ids : list Z) (input : list tree) : option (list tree) :=
    match subtract full ids input with
    | None => None
    | Some [] => Some input
    | Some ids' =>
        match lookup "_rowid" input with
        | None => None
        | Some _ => option_map (merge_with_schema input (flat_map (by_ids ids') full)) (output_schema full ids' input)
        end
    end.
  (* schema() of the node *)
  Definition take_schema (full : list tree) (ids : list Z) (input : list tree) : option (list tree) :=
    match subtract full ids input with
    | None => None
    | Some [] => Some input
    | Some ids' => match lookup "_rowid" input with None => None | Some _ => output_schema full ids' input end
    end.
End Late.
