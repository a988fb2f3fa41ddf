(* Altering columns: rust/lance/src/dataset/schema_evolution.rs alter_columns 461-650.
   Simplifications: a column path is split at its dots beforehand; can_cast_types together with
   is_upcast_downcast (108-128) is a parameter, as is the cast of one value (None: it would lose
   something); a data file gives a value for each of its field ids and rows, the value of a list or
   struct column sitting at its own id; a column of another type than the field it is written to
   makes the encoder panic; nullability of children is not checked when writing; the commit itself
   is in TxnModel (Project, Merge). i32 overflow of field ids is not modelled. *)
From Coq Require Import List Arith NArith ZArith Bool String Ascii.
From Verif Require Import Lib RowIdsModel SerdeModel ReadParamsModel DeletionModel FragReadModel SchemaModel ProjModel AddColsModel.
Import ListNotations.
Open Scope list_scope.
Local Open Scope Z_scope.

(* schema_evolution.rs ColumnAlteration 57-104; a type is the field that Field::try_from makes of an
   arrow field of that type (field.rs:910-949): its logical type, encoding and children, ids -1 *)
Record alteration := { al_path : list string; al_rename : option string; al_null : option bool; al_type : option rfield }.

(* Schema::mut_field_by_id schema.rs:446-457, Field::mut_field_by_id field.rs:863-874: the first in
   pre-order; get_at reads it, put_at writes it *)
Definition get_at (id : Z) (l : list rfield) : option rfield := find (fun f => r_id f =? id) (fields_pre_order l).
Fixpoint put_in (id : Z) (n : rfield) (f : rfield) : option rfield :=
  match f with
  | RF a c => if a_id a =? id then Some n
              else omap (RF a) ((fix go (l : list rfield) : option (list rfield) :=
                                   match l with
                                   | [] => None
                                   | x :: t => match put_in id n x with Some x' => Some (x' :: t) | None => omap (cons x) (go t) end
                                   end) c)
  end.
Fixpoint put_at (id : Z) (n : rfield) (l : list rfield) : option (list rfield) :=
  match l with
  | [] => None
  | x :: t => match put_in id n x with Some x' => Some (x' :: t) | None => omap (cons x) (put_at id n t) end
  end.
(* 511-516 *)
Definition relabel (n : string) (b : bool) (f : rfield) : rfield :=
  let a := r_attrs f in
  RF {| a_name := n; a_id := a_id a; a_parent := a_parent a; a_type := a_type a; a_meta := a_meta a;
        a_enc := a_enc a; a_null := b; a_dict := a_dict a; a_storage := a_storage a |} (r_children f).
(* 532-538: a new field without metadata, with ids from the seed *)
Definition recast (n : string) (b : bool) (parent seed : Z) (t : rfield) : rfield * Z :=
  set_id parent seed
    (RF {| a_name := n; a_id := -1; a_parent := -1; a_type := a_type (r_attrs t); a_meta := [];
           a_enc := a_enc (r_attrs t); a_null := b; a_dict := None; a_storage := SDefault |} (r_children t)).
Definition orelse {A} (o : option A) (d : A) : A := match o with Some x => x | None => d end.
(* the loop 477-543: new schema, casts (old field, new field), next field id *)
Definition astate := (list rfield * list (rfield * rfield) * Z)%type.
Definition alter_one (castable : rfield -> rfield -> bool) (old : list rfield) (st : astate) (al : alteration) : outcome astate :=
  let '(l, casts, next) := st in
  match field_at old (al_path al) with
  | None => Err
  | Some src =>
      if negb (storage_eqb (a_storage (r_attrs src)) SDefault) then Err
      else if a_null (r_attrs src) && match al_null al with Some b => negb b | None => false end then Err
      else match get_at (r_id src) l with
           | None => Panic
           | Some dest =>
               let n := orelse (al_rename al) (r_name dest) in
               let b := orelse (al_null al) (a_null (r_attrs dest)) in
               match al_type al with
               | None => match put_at (r_id src) (relabel n b dest) l with None => Panic | Some l' => Ok (l', casts, next) end
               | Some t =>
                   if castable src t
                   then let '(f, next') := recast n b (a_parent (r_attrs src)) next t in
                        match put_at (r_id src) f l with None => Panic | Some l' => Ok (l', casts ++ [(src, f)], next') end
                   else Err
               end
           end
  end.
Fixpoint alter_loop (castable : rfield -> rfield -> bool) (old : list rfield) (st : astate) (als : list alteration) : outcome astate :=
  match als with
  | [] => Ok st
  | al :: t => obnd (alter_one castable old st al) (fun st' => alter_loop castable old st' t)
  end.
(* Schema::validate schema.rs:220-267. The path looked up for a top-level field is its own name unless
   an id occurs twice, and then the check of the ids fails *)
Fixpoint has_dot (s : string) : bool := match s with EmptyString => false | String c t => Ascii.eqb c "."%char || has_dot t end.
Fixpoint nodup_str (l : list string) : bool := match l with [] => true | x :: t => negb (existsb (String.eqb x) t) && nodup_str t end.
Definition validate (l : list rfield) : bool :=
  forallb (fun f => negb (has_dot (r_name f))) l && nodup_str (map r_name l) && validate_ids l.
Definition alter_schema (castable : rfield -> rfield -> bool) (next : Z) (old : list rfield) (als : list alteration)
  : outcome (list rfield * list (rfield * rfield)) :=
  obnd (alter_loop castable old (old, [], next) als) (fun '(l, casts, _) => if validate l then Ok (l, casts) else Err).

(* ---- the data ---- *)
Record afile (V : Type) := { fi_ids : list Z; fi_col : Z -> nat -> V }.
Arguments fi_ids {V}. Arguments fi_col {V}.
Record cfrag (V : Type) := { cf_id : N; cf_phys : nat; cf_del : dv; cf_files : list (afile V) }.
Arguments cf_id {V}. Arguments cf_phys {V}. Arguments cf_del {V}. Arguments cf_files {V}.
(* reading: the first file that has the field; null if there is none (C91) *)
Definition column {V} (null : V) (f : cfrag V) (i : Z) (o : nat) : V :=
  match find (fun x => memZ i (fi_ids x)) (cf_files f) with Some x => fi_col x i o | None => null end.
(* Manifest::max_field_id manifest.rs:255-265 *)
Definition max_field_id {V} (l : list rfield) (fs : list (cfrag V)) : Z :=
  Z.max (match schema_max_id l with Some m => m | None => -1 end)
        (fold_right Z.max (-1) (flat_map (fun f => flat_map fi_ids (cf_files f)) fs)).
(* 559-568, 574-578: the top-level column that is read for a cast; the batch holds these *)
Definition top_of (l : list rfield) (i : Z) : option rfield := find (fun f => memZ i (r_field_ids [f])) l.
Definition read_names (old : list rfield) (casts : list (rfield * rfield)) : list string :=
  flat_map (fun c => match top_of old (r_id (fst c)) with Some t => [r_name t] | None => [] end) casts.
(* the mapper 577-598 on one row: batch[&old.name] of every cast *)
Definition cast_row {V} (cast : rfield -> rfield -> V -> option V) (old : list rfield) (casts : list (rfield * rfield)) (r : Z -> V) : option (list V) :=
  sequence_opt (map (fun c => match lookup (r_name (fst c)) old with Some t => cast (fst c) (snd c) (r (r_id t)) | None => None end) casts).
Definition cast_batch {V} (cast : rfield -> rfield -> V -> option V) (old : list rfield) (casts : list (rfield * rfield)) (b : list (Z -> V)) : option (list (list V)) :=
  sequence_opt (map (cast_row cast old casts) b).
Definition as_afrag {V} (null : V) (f : cfrag V) : afrag (Z -> V) :=
  {| af_id := cf_id f; af_phys := cf_phys f; af_del := cf_del f; af_row := fun o i => column null f i o |}.
(* lance-file/src/v2/writer.rs:241-262 (v1: writer.rs:146-162): the columns are zipped with the fields *)
Definition nulls_ok {V} (is_null : V -> bool) (ncs : list rfield) (row : list V) : bool :=
  forallb (fun vf => a_null (r_attrs (snd vf)) || negb (is_null (fst vf))) (combine row ncs).
(* encode_batch 309-341: by name *)
Fixpoint position (n : string) (casts : list (rfield * rfield)) : option nat :=
  match casts with
  | [] => None
  | c :: t => if String.eqb (r_name (snd c)) n then Some 0%nat else omap S (position n t)
  end.
Fixpoint written (ncs : list rfield) (casts : list (rfield * rfield)) : outcome (list (Z * nat)) :=
  match ncs with
  | [] => Ok []
  | f :: t => match position (r_name f) casts with
              | None => Err
              | Some k => match nth_error casts k with
                          | Some c => if r_id (snd c) =? r_id f then obnd (written t casts) (fun r => Ok ((r_id f, k) :: r)) else Panic
                          | None => Err
                          end
              end
  end.
(* the file pushed, and the files kept 612-625 *)
Definition new_file {V} (null : V) (ncs : list rfield) (cols : list (Z * nat)) (out : list (list V)) : afile V :=
  {| fi_ids := r_field_ids ncs;
     fi_col := fun i o => match find (fun c => fst c =? i) cols with
                          | Some c => nth (snd c) (nth o out []) null
                          | None => null
                          end |}.
Definition keep_files {V} (ids : list Z) (fs : list (afile V)) : list (afile V) := filter (fun x => existsb (fun i => memZ i ids) (fi_ids x)) fs.
Definition alter_fragment {V} (null : V) (is_null : V -> bool) (cast : rfield -> rfield -> V -> option V) (u : usize)
    (old new : list rfield) (casts : list (rfield * rfield)) (f : cfrag V) : outcome (cfrag V) :=
  let ncs := project_by_ids (map (fun c => r_id (snd c)) casts) true new in
  let files := fun x => keep_files (r_field_ids new) (cf_files f ++ x) in
  let res := fun x => {| cf_id := cf_id f; cf_phys := cf_phys f; cf_del := cf_del f; cf_files := files x |} in
  if negb (forallb (fun c => existsb (String.eqb (r_name (fst c))) (read_names old casts)) casts) && (0 <? cf_phys f)%nat then Panic
  else obnd (add_to_fragment u (cast_batch cast old casts) (as_afrag null f)) (fun g =>
       match uf_col g with
       | None => Ok (res [])
       | Some out => if forallb (nulls_ok is_null ncs) out
                     then obnd (written ncs casts) (fun cols => Ok (res [new_file null ncs cols out]))
                     else Err
       end).
Fixpoint alter_fragments {V} (null : V) (is_null : V -> bool) (cast : rfield -> rfield -> V -> option V) (u : usize)
    (old new : list rfield) (casts : list (rfield * rfield)) (fs : list (cfrag V)) : outcome (list (cfrag V)) :=
  match fs with
  | [] => Ok []
  | f :: t => obnd (alter_fragment null is_null cast u old new casts f) (fun g =>
              obnd (alter_fragments null is_null cast u old new casts t) (fun r => Ok (g :: r)))
  end.
(* the schema and the fragments of the transaction 545-633 *)
Definition alter_columns {V} (null : V) (is_null : V -> bool) (cast : rfield -> rfield -> V -> option V) (castable : rfield -> rfield -> bool) (u : usize)
    (old : list rfield) (fs : list (cfrag V)) (als : list alteration) : outcome (list rfield * list (cfrag V)) :=
  obnd (alter_schema castable (max_field_id old fs + 1) old als) (fun '(new, casts) =>
  match casts with
  | [] => Ok (new, fs)
  | _ => obnd (alter_fragments null is_null cast u old new casts fs) (fun gs => Ok (new, gs))
  end).
