(* Which columns of a file belong to which fields: how the writer gives columns to the fields of a schema
   (rust/lance-encoding/src/encoder.rs 937-953, 1076-1179, 1240-1311, 1344-1375; the order in which encoders hand in
   their columns: encodings/logical/struct.rs 993-1025, list.rs 1248-1260, 1320-1325; rust/lance-file/src/v2/writer.rs
   455-510), how a projection becomes a list of column indices (rust/lance-file/src/v2/reader.rs 189-291, 686-712,
   rust/lance/src/dataset/fragment.rs 630-660, 850-864), and how the reader takes the columns of that list
   (rust/lance-encoding/src/decoder.rs 403-458, 685-700, 778-846, 848-985, 1036-1104).
   Simplifications: field ids, column indices and positions are natural numbers; a column is only known by the field
   it was written for and by the kind of its pages; primitive types, strings, fixed size lists of primitives and
   dictionaries are all leaves (one column; in version 2.1 the reader supports fewer of them, which is not modelled);
   blob columns and the old list pages of strings are left out. *)
From Coq Require Import List Arith Bool Lia.
From Verif Require Import Lib.
Import ListNotations.

(* ---- fields ---- *)
(* the value of the metadata key "packed": "true", another spelling of it, anything else *)
Inductive pval := PTrue | PTrueCase | POther.
Inductive kind := KLeaf | KList | KStruct.
(* at_legacy: the key "packed"; at_new: whether the key "lance-encoding:packed" is there (lance-core datatypes.rs 30-31) *)
Record attrs := { at_id : nat; at_kind : kind; at_legacy : option pval; at_new : bool }.
Inductive field := Fld (a : attrs) (cs : list field).
Definition f_attrs (f : field) := match f with Fld a _ => a end.
Definition f_id (f : field) : nat := at_id (f_attrs f).
Definition f_children (f : field) : list field := match f with Fld _ cs => cs end.
(* encoder.rs 1129-1134: what the writer of version 2.0 takes for packed *)
Definition packed20 (a : attrs) : bool := match at_legacy a with Some PTrue => true | Some _ => false | None => at_new a end.
(* Field::is_packed_struct, lance-core datatypes/field.rs 877-883: case does not matter, the new key is not known *)
Definition is_packed (a : attrs) : bool := match at_legacy a with Some PTrue | Some PTrueCase => true | _ => false end.

(* ---- writing ---- *)
Inductive role := RLeaf | RList | RStruct | RPacked.
Record column := { c_owner : nat; c_role : role }.
Definition mapping := list (nat * nat).
(* what the encoder of a field hands in: each column with the index that its pages carry *)
Definition encoded := list (nat * column).
Definition packed_for (structural : bool) (a : attrs) : bool := if structural then is_packed a else packed20 a.
(* ColumnIndexSequence::next_column_index *)
Definition own (a : attrs) (r : role) (n : nat) : encoded * mapping * nat := ([(n, {| c_owner := at_id a; c_role := r |})], [(at_id a, n)], S n).
(* create_field_encoder: of 2.0 (structural = false) and of 2.1; None: the field is not supported *)
Fixpoint create_encoder (structural : bool) (f : field) (n : nat) {struct f} : option (encoded * mapping * nat) :=
  match f with
  | Fld a cs =>
      let all := (fix all (cs : list field) (n : nat) : option (encoded * mapping * nat) :=
        match cs with
        | [] => Some ([], [], n)
        | c :: t =>
            match create_encoder structural c n with
            | Some (x, m, n1) => match all t n1 with Some (y, m2, n2) => Some (x ++ y, m ++ m2, n2) | None => None end
            | None => None
            end
        end) in
      let with_header (r : role) (rest : nat -> option (encoded * mapping * nat)) :=
        if structural then rest n
        else match own a r n with
             | (x, m, n1) => match rest n1 with Some (y, m2, n2) => Some (x ++ y, m ++ m2, n2) | None => None end
             end in
      match at_kind a with
      | KLeaf => Some (own a RLeaf n)
      | KList => match cs with [c] => with_header RList (create_encoder structural c) | _ => None end
      | KStruct => if packed_for structural a then Some (own a RPacked n) else with_header RStruct (all cs)
      end
  end.
(* BatchEncoder::try_new 1345-1368 *)
Fixpoint create_all (structural : bool) (fs : list field) (n : nat) : option (encoded * mapping * nat) :=
  match fs with
  | [] => Some ([], [], n)
  | f :: t =>
      match create_encoder structural f n with
      | Some (x, m, n1) => match create_all structural t n1 with Some (y, m2, n2) => Some (x ++ y, m ++ m2, n2) | None => None end
      | None => None
      end
  end.
(* finish_writers: the k-th column handed in is the k-th column of the file; the pages were put by their own index *)
Definition file_columns (e : encoded) : list column := map snd e.

(* ---- projections ---- *)
(* BTreeMap::from_iter: of equal keys the last one stays *)
Definition lookup (m : mapping) (id : nat) : option nat := omap snd (find (fun p : nat * nat => fst p =? id) (rev m)).
(* from_field_ids_helper 190-214 *)
Fixpoint from_field (structural : bool) (m : mapping) (f : field) : list nat :=
  match f with
  | Fld a cs =>
      (if negb structural || match cs with [] => true | _ => false end then match lookup m (at_id a) with Some i => [i] | None => [] end else [])
      ++ flat_map (from_field structural m) cs
  end.
Definition from_field_ids (structural : bool) (m : mapping) (fs : list field) : list nat := flat_map (from_field structural m) fs.
(* fields_pre_order *)
Fixpoint pre (f : field) : list field := match f with Fld a cs => Fld a cs :: flat_map pre cs end.
Definition pre_order (fs : list field) : list field := flat_map pre fs.
(* from_whole_schema 244-267: [cur] is the next column, [skip] the fields still to be passed over *)
Fixpoint whole (structural : bool) (l : list field) (skip cur : nat) : list nat :=
  match l with
  | [] => []
  | f :: t =>
      match skip with
      | S skip' => whole structural t skip' cur
      | 0 => if is_packed (f_attrs f) then cur :: whole structural t (length (f_children f)) (S cur)
             else if (match f_children f with [] => true | _ => false end) || negb structural then cur :: whole structural t 0 (S cur)
             else whole structural t 0 cur
      end
  end.
Definition from_whole_schema (structural : bool) (fs : list field) : list nat := whole structural (pre_order fs) 0 0.
(* from_column_names 275-291: [p] is the schema projected to the names; None: an id that is not in the schema (a panic) *)
Fixpoint all_some {A} (l : list (option A)) : option (list A) :=
  match l with [] => Some [] | o :: t => match o, all_some t with Some x, Some y => Some (x :: y) | _, _ => None end end.
Definition by_position (fs : list field) : mapping := combine (map f_id (pre_order fs)) (seq 0 (length (pre_order fs))).
Definition from_column_names (fs p : list field) : option (list nat) := all_some (map (fun f => lookup (by_position fs) (f_id f)) (pre_order p)).
(* create_from_file, fragment.rs 634-659, and how the file is opened later, 850-862: the ids of all fields of the schema
   beside the columns of from_whole_schema *)
Definition adopted (structural : bool) (fs : list field) : mapping := combine (map f_id (pre_order fs)) (from_whole_schema structural fs).

(* ---- reading ---- *)
(* validate_projection 686-712 *)
Fixpoint distinct (l : list nat) : bool := match l with [] => true | x :: t => negb (existsb (Nat.eqb x) t) && distinct t end.
Definition valid_projection (cols : list column) (fs : list field) (idx : list nat) : bool :=
  (match fs with [] => false | _ => true end) && distinct idx && forallb (fun i => i <? length cols) idx.
(* ColumnInfoIter, decoder.rs 403-458 *)
Record iter := { ci_cols : list column; ci_idx : list nat; ci_pos : nat; ci_ip : nat }.
Definition it_new (cols : list column) (idx : list nat) : option iter :=
  match idx with i :: _ => Some {| ci_cols := cols; ci_idx := idx; ci_pos := i; ci_ip := 0 |} | [] => None end.
Definition it_next (it : iter) : option (column * nat * iter) :=
  match nth_error (ci_cols it) (ci_pos it) with
  | Some c => Some (c, ci_pos it, {| ci_cols := ci_cols it; ci_idx := ci_idx it; ci_pos := S (ci_pos it); ci_ip := ci_ip it |})
  | None => None
  end.
Definition next_top (it : iter) : iter :=
  {| ci_cols := ci_cols it; ci_idx := ci_idx it;
     ci_pos := match nth_error (ci_idx it) (S (ci_ip it)) with Some i => i | None => length (ci_cols it) end;
     ci_ip := S (ci_ip it) |}.
(* create_legacy_field_scheduler 848-985 with create_list_scheduler 685-776: each field with the column it reads;
   None: an error or a panic *)
Fixpoint legacy (f : field) (it : iter) {struct f} : option (list (nat * nat) * iter) :=
  match f with
  | Fld a cs =>
      match it_next it with
      | None => None
      | Some (c, p, it1) =>
          match at_kind a with
          | KLeaf => Some ([(at_id a, p)], it1)
          | KList =>
              match cs, c_role c with
              | [x], RList => match legacy x (next_top it1) with Some (r, it2) => Some ((at_id a, p) :: r, it2) | None => None end
              | _, _ => None
              end
          | KStruct =>
              match c_role c with
              | RPacked => Some ([(at_id a, p)], it1)
              | RStruct =>
                  match (fix all (cs : list field) (it : iter) : option (list (nat * nat) * iter) :=
                    match cs with
                    | [] => Some ([], it)
                    | x :: t =>
                        match legacy x (next_top it) with
                        | Some (r, it1) => match all t it1 with Some (r2, it2) => Some (r ++ r2, it2) | None => None end
                        | None => None
                        end
                    end) cs it1 with
                  | Some (r, it2) => Some ((at_id a, p) :: r, it2)
                  | None => None
                  end
              | _ => None
              end
          end
      end
  end.
(* create_structural_field_scheduler 778-846 *)
Fixpoint structural_scheduler (f : field) (it : iter) {struct f} : option (list (nat * nat) * iter) :=
  match f with
  | Fld a cs =>
      let leaf := match it_next it with Some (_, p, it1) => Some ([(at_id a, p)], next_top it1) | None => None end in
      match at_kind a with
      | KLeaf => leaf
      | KList => match cs with x :: _ => structural_scheduler x it | [] => None end
      | KStruct =>
          if is_packed a then leaf
          else (fix all (cs : list field) (it : iter) : option (list (nat * nat) * iter) :=
                  match cs with
                  | [] => Some ([], it)
                  | x :: t =>
                      match structural_scheduler x it with
                      | Some (r, it1) => match all t it1 with Some (r2, it2) => Some (r ++ r2, it2) | None => None end
                      | None => None
                      end
                  end) cs it
      end
  end.
(* DecodeBatchScheduler::try_new 1036-1104: the fields are the children of a root struct; before 2.1 it has a column of
   its own in front of the file's *)
Definition root : attrs := {| at_id := 0; at_kind := KStruct; at_legacy := None; at_new := false |}.
Definition read_columns (structural : bool) (cols : list column) (fs : list field) (idx : list nat) : option (list (nat * nat)) :=
  if valid_projection cols fs idx then
    if structural then obind (it_new cols idx) (fun it => omap fst (structural_scheduler (Fld root fs) it))
    else obind (it_new ({| c_owner := 0; c_role := RStruct |} :: cols) (0 :: map S idx)) (fun it =>
         omap (fun r => map (fun p : nat * nat => (fst p, snd p - 1)) (tl (fst r))) (legacy (Fld root fs) it))
  else None.
(* a file is written with a schema and read with a projection *)
Definition written (structural : bool) (fs : list field) : option (list column * mapping) :=
  omap (fun r => (file_columns (fst (fst r)), snd (fst r))) (create_all structural fs 0).
Definition read_ids (structural : bool) (fs p : list field) : option (list (nat * nat)) :=
  obind (written structural fs) (fun w => read_columns structural (fst w) p (from_field_ids structural (snd w) p)).
Definition read_whole (structural : bool) (fs : list field) : option (list (nat * nat)) :=
  obind (written structural fs) (fun w => read_columns structural (fst w) fs (from_whole_schema structural fs)).
Definition read_names (structural : bool) (fs p : list field) : option (list (nat * nat)) :=
  obind (written structural fs) (fun w => obind (from_column_names fs p) (read_columns structural (fst w) p)).
Definition read_adopted (structural : bool) (fs p : list field) : option (list (nat * nat)) :=
  obind (written structural fs) (fun w => read_columns structural (fst w) p (from_field_ids structural (adopted structural fs) p)).
