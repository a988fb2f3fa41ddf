(* Dataset::merge, a left join that adds columns: rust/lance/src/dataset.rs merge_impl 1447-1528,
   rust/lance/src/dataset/hash_joiner.rs, fragment.rs merge 1461-1472, Schema::merge
   (rust/lance-core/src/datatypes/schema.rs:533-564).
   Simplifications: the key is a leaf column, its type is the logical type; arrow-row encodes keys
   injectively, null as a value of its own; a batch is a list of rows; the names of the columns on
   the right are distinct; writing to the dash map is atomic per entry, so the index is built by some
   interleaving of the insertions of the batches; the columns read from a fragment are its rows
   (C91), the updater is that of AddColsModel; schema metadata is left out. *)
From Coq Require Import List Arith NArith ZArith Bool String Ascii.
From Verif Require Import Lib RowIdsModel SerdeModel ReadParamsModel DeletionModel FragReadModel SchemaModel ProjModel AddColsModel AlterModel.
Import ListNotations.
Open Scope list_scope.
Local Open Scope nat_scope.

Definition cell := option Z.
Definition cell_eqb (a b : cell) : bool := match a, b with Some x, Some y => Z.eqb x y | None, None => true | _, _ => false end.
Definition present {A} (o : option A) : bool := match o with Some _ => true | None => false end.
(* str::split('.') *)
Fixpoint split_dots (s : string) : list string :=
  match s with
  | EmptyString => [EmptyString]
  | String c t => if Ascii.eqb c "."%char then EmptyString :: split_dots t
                  else match split_dots t with [] => [String c EmptyString] | h :: r => String c h :: r end
  end.
(* Schema::field schema.rs:374-380 *)
Definition schema_field (l : list rfield) (n : string) : option rfield := field_at l (split_dots n).
(* arrow's Schema::index_of: the first field of the name *)
Fixpoint index_of (n : string) (l : list rfield) : option nat :=
  match l with [] => None | f :: t => if String.eqb (r_name f) n then Some 0 else omap S (index_of n t) end.
(* keep_indices, hash_joiner.rs:61-66, of the fields or of a row *)
Definition keep {T} (on : string) (right : list rfield) (xs : list T) : list T :=
  map snd (filter (fun p => negb (String.eqb (r_name (fst p)) on)) (combine right xs)).

(* hash_joiner.rs:23-31; the latest entry of the index comes first *)
Record joiner := { jo_index : list (cell * (nat * nat)); jo_type : string; jo_batches : list (list (list cell)); jo_fields : list rfield }.
(* the insertions of every batch, 80-101 *)
Definition slots (bs : list (list (list cell))) : list (list (nat * nat)) :=
  map (fun ib => map (pair (fst ib)) (seq 0 (List.length (snd ib)))) (combine (seq 0 (List.length bs)) bs).
Inductive interleaving {A} : list (list A) -> list A -> Prop :=
  | il_done : forall ls, Forall (fun l => l = []) ls -> interleaving ls []
  | il_step : forall ls1 x l ls2 r, interleaving (ls1 ++ l :: ls2) r -> interleaving (ls1 ++ (x :: l) :: ls2) (x :: r).
Definition row_at (bs : list (list (list cell))) (p : nat * nat) : list cell := nth (snd p) (nth (fst p) bs []) [].
(* try_new 45-117; [order] is the order in which the entries reach the map *)
Definition try_new (right : list rfield) (bs : list (list (list cell))) (on : string) (order : list (nat * nat)) : outcome joiner :=
  match index_of on right with
  | None => Err
  | Some k =>
      match bs with
      | [] => Err
      | _ => Ok {| jo_index := fold_left (fun m p => (nth k (row_at bs p) None, p) :: m) order [];
                   jo_type := a_type (r_attrs (nth k right (RF (Build_attrs "" 0 0 "" [] None true None SDefault) [])));
                   jo_batches := map (map (keep on right)) bs; jo_fields := keep on right right |}
      end
  end.
(* lance-core/src/datatypes.rs:375-385, on logical types (43-118) *)
Definition supports_nulls (t : string) : bool :=
  existsb (String.eqb t) ["string"; "large_string"; "binary"; "list"; "list.struct"]%string ||
  String.prefix "fixed_size_binary:" t || String.prefix "fixed_size_list:" t.
(* collect 128-213: the extra array with one null per column, interleave, the checks on nulls (185, and
   RecordBatch::try_new 213, which also refuses to make a batch without columns) *)
Definition find_slot (j : joiner) (k : cell) : nat * nat :=
  match find (fun e => cell_eqb (fst e) k) (jo_index j) with Some e => snd e | None => (List.length (jo_batches j), 0) end.
Definition joined (j : joiner) (k : cell) : list cell :=
  row_at (jo_batches j ++ [[map (fun _ => None) (jo_fields j)]]) (find_slot j k).
Definition null_ok (f : rfield) (v : cell) : bool := present v || (supports_nulls (a_type (r_attrs f)) && a_null (r_attrs f)).
Definition row_ok (fields : list rfield) (r : list cell) : bool := forallb (fun p => null_ok (fst p) (snd p)) (combine fields r).
Definition collect (j : joiner) (t : string) (keys : list cell) : option (list (list cell)) :=
  if negb (String.eqb t (jo_type j)) then None else
  match jo_fields j with
  | [] => None
  | _ => let rows := map (joined j) keys in if forallb (row_ok (jo_fields j)) rows then Some rows else None
  end.

(* Field::reset_id field.rs:831-834, Schema::reset_id schema.rs:503-505 *)
Fixpoint reset_id (f : rfield) : rfield := match f with RF a c => RF (set_ids a (-1) (a_parent a)) (map reset_id c) end.
(* Schema::merge schema.rs:533-564 *)
Fixpoint merge_into (l other : list rfield) : outcome (list rfield) :=
  match l with
  | [] => Ok []
  | f :: t => obnd (match schema_field other (r_name f) with Some o => merge_f o f | None => Ok f end) (fun f' =>
              obnd (merge_into t other) (fun t' => Ok (f' :: t')))
  end.
Fixpoint push_new (acc other : list rfield) : list rfield :=
  match other with
  | [] => acc
  | o :: t => push_new (if existsb (fun f => String.eqb (r_name f) (r_name o)) acc then acc else acc ++ [o]) t
  end.
Definition schema_merge (l other : list rfield) : outcome (list rfield) :=
  let o := map reset_id other in obnd (merge_into l o) (fun l' => Ok (push_new l' o)).

(* dataset.rs:1447-1503. The type of the column joined on, and whether it is found in the batches
   under its name (fragment.rs:1465: batch[join_column]) *)
Definition row_id_name : string := "_rowid".
Definition row_addr_name : string := "_rowaddr".
Definition left_key (old : list rfield) (on : string) : option (string * bool) :=
  match schema_field old on with
  | Some f => Some (a_type (r_attrs f), negb (has_dot on))
  | None => if String.eqb on row_id_name || String.eqb on row_addr_name then Some ("uint64"%string, true) else None
  end.
(* fragment.rs updater 1373-1378 *)
Definition left_storage_ok (old : list rfield) (on : string) : bool :=
  String.eqb on row_id_name || String.eqb on row_addr_name ||
  match lookup (hd ""%string (split_dots on)) old with Some f => storage_eqb (a_storage (r_attrs f)) SDefault | None => true end.
(* fragment.rs:1461-1472; final is the schema that the updater validates (updater.rs:179-186) *)
Definition merge_fragment (u : usize) (final : list rfield) (j : joiner) (t : string) (top storage : bool) (f : afrag cell) : outcome (ufrag (list cell)) :=
  if negb storage then Err
  else if negb top && (0 <? af_phys f) then Panic
  else obnd (add_to_fragment u (collect j t) f) (fun g => if validate final then Ok g else Err).
Fixpoint merge_fragments (u : usize) (final : list rfield) (j : joiner) (t : string) (top storage : bool) (fs : list (afrag cell)) : outcome (list (ufrag (list cell))) :=
  match fs with
  | [] => Ok []
  | f :: r => obnd (merge_fragment u final j t top storage f) (fun g => obnd (merge_fragments u final j t top storage r) (fun gs => Ok (g :: gs)))
  end.
Definition merge_dataset (u : usize) (old : list rfield) (mx : Z) (fs : list (afrag cell)) (left_on : string)
    (right : list rfield) (bs : list (list (list cell))) (right_on : string) (order : list (nat * nat))
  : outcome (list (ufrag (list cell)) * list rfield) :=
  match left_key old left_on with
  | None => Err
  | Some (t, top) =>
      if negb (present (index_of right_on right)) then Err
      else if existsb (fun f => negb (String.eqb (r_name f) right_on) && present (schema_field old (r_name f))) right then Err
      else obnd (try_new right bs right_on order) (fun j =>
           obnd (schema_merge old (jo_fields j)) (fun s =>
           let final := set_field_id (Some mx) s in
           obnd (merge_fragments u final j t top (left_storage_ok old left_on) fs) (fun gs => Ok (gs, final))))
  end.
