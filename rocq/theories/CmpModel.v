(* Comparing schemas: rust/lance-core/src/datatypes/{schema.rs,field.rs}.
   Simplifications: the text of a difference is a constructor; a value array is an opaque
   number compared by equality; the metadata of schemas is an association list. *)
From Coq Require Import List Arith NArith ZArith Bool String.
From Verif Require Import Lib SchemaModel.
Import ListNotations.
Open Scope list_scope.

(* field.rs:34-62 *)
Inductive nullcmp := NStrict | NOneWay | NIgnore.
Record copts := { c_meta : bool; c_dict : bool; c_ids : bool; c_null : nullcmp; c_missing : bool; c_order : bool }.

(* PartialEq for HashMap: the same number of entries, and each in the other *)
Definition map_eqb (a b : smap) : bool :=
  (List.length a =? List.length b) && forallb (fun '(k, v) => match sm_get k b with Some w => String.eqb v w | None => false end) a.
(* PartialEq for Dictionary, datatypes.rs:365-372: never equal without values *)
Definition dict_eqb (a b : dict) : bool := match di_values a, di_values b with Some x, Some y => (x =? y)%N | _, _ => false end.
Definition odict_eqb (a b : option dict) : bool := match a, b with Some x, Some y => dict_eqb x y | None, None => true | _, _ => false end.
(* compare_nullability, field.rs:360-370 *)
Definition null_ok (o : copts) (expected actual : bool) : bool :=
  match c_null o with NStrict => Bool.eqb expected actual | NOneWay => expected || negb actual | NIgnore => true end.
Definition memS (n : string) (l : list string) : bool := existsb (String.eqb n) l.
(* the HashMap of compare_fields 641-645: of fields with one name the last is kept *)
Fixpoint lookup_last (n : string) (fs : list rfield) (pos : nat) : option (rfield * nat) :=
  match fs with
  | [] => None
  | f :: t => match lookup_last n t (S pos) with
              | Some r => Some r
              | None => if String.eqb (r_name f) n then Some (f, pos) else None
              end
  end.
(* everything but the children, compare_with_options field.rs:372-381 *)
Definition own_eqb (o : copts) (e f : attrs) : bool :=
  String.eqb (a_name f) (a_name e) && String.eqb (a_type f) (a_type e) && null_ok o (a_null e) (a_null f) &&
  (negb (c_ids o) || (a_id f =? a_id e)%Z) && (negb (c_dict o) || odict_eqb (a_dict f) (a_dict e)) && (negb (c_meta o) || map_eqb (a_meta f) (a_meta e)).

(* Field::compare_with_options 372-381 with compare_fields, schema.rs:624-671 *)
Fixpoint cmp_f (o : copts) (e f : rfield) : bool :=
  match e with
  | RF ae ce =>
      own_eqb o ae (r_attrs f) &&
      (if c_missing o || c_order o
       then forallb (fun x => memS (r_name x) (map r_name ce)) (r_children f) &&
            (fix go (l : list rfield) (cum : nat) : bool :=
               match l with
               | [] => true
               | x :: t => match lookup_last (r_name x) (r_children f) 0 with
                           | Some (y, pos) => cmp_f o x y && (c_order o || negb (pos <? cum)) && go t pos
                           | None => c_missing o && a_null (r_attrs x) && go t cum
                           end
               end) ce 0
       else (List.length (r_children f) =? List.length ce) &&
            (fix zip (l m : list rfield) : bool := match l, m with x :: t, y :: u => cmp_f o x y && zip t u | _, _ => true end) ce (r_children f))
  end.
(* compare_fields, schema.rs:624-671 *)
Fixpoint cmp_go (o : copts) (fs l : list rfield) (cum : nat) : bool :=
  match l with
  | [] => true
  | x :: t => match lookup_last (r_name x) fs 0 with
              | Some (y, pos) => cmp_f o x y && (c_order o || negb (pos <? cum)) && cmp_go o fs t pos
              | None => c_missing o && a_null (r_attrs x) && cmp_go o fs t cum
              end
  end.
Fixpoint cmp_zip (o : copts) (l m : list rfield) : bool := match l, m with x :: t, y :: u => cmp_f o x y && cmp_zip o t u | _, _ => true end.
Definition compare_fields (o : copts) (fs es : list rfield) : bool :=
  if c_missing o || c_order o then forallb (fun x => memS (r_name x) (map r_name es)) fs && cmp_go o fs es 0
  else (List.length fs =? List.length es) && cmp_zip o es fs.
(* Schema::compare_with_options 63-66 *)
Definition compare_schemas (o : copts) (s e : rschema) : bool :=
  compare_fields o (rs_fields s) (rs_fields e) && (negb (c_meta o) || map_eqb (rs_meta s) (rs_meta e)).

Inductive diff := DFields (missing unexpected : list string) | DOrder | DField (l : list diff)
  | DName | DId | DType | DNull | DDict | DMeta | DChildren (l : list diff).
Fixpoint position (n : string) (fs : list rfield) : option nat :=
  match fs with [] => None | f :: t => if String.eqb n (r_name f) then Some 0 else omap S (position n t) end.
Definition dummy : rfield := RF {| a_name := EmptyString; a_id := 0; a_parent := 0; a_type := EmptyString; a_meta := []; a_enc := None; a_null := false; a_dict := None; a_storage := SDefault |} [].
(* field_mapping.windows(2).any(...), schema.rs:743-744 *)
Fixpoint descends (l : list nat) : bool :=
  match l with x :: (y :: _) as t => (y <? x) || descends t | _ => false end.
Definition positions (fs es : list rfield) : list nat := flat_map (fun e => match position (r_name e) fs with Some p => [p] | None => [] end) es.
(* the differences of the own attributes, field.rs:296-331 *)
Definition own_diffs (o : copts) (e f : attrs) : list diff :=
  (if String.eqb (a_name f) (a_name e) then [] else [DName]) ++
  (if c_ids o && negb (a_id f =? a_id e)%Z then [DId] else []) ++
  (if String.eqb (a_type f) (a_type e) then [] else [DType]) ++
  (if null_ok o (a_null e) (a_null f) then [] else [DNull]) ++
  (if c_dict o && negb (odict_eqb (a_dict f) (a_dict e)) then [DDict] else []) ++
  (if c_meta o && negb (map_eqb (a_meta f) (a_meta e)) then [DMeta] else []).
(* the names that are missing or not expected and the order, schema.rs:679-757 *)
Definition missing_names (o : copts) (fs es : list rfield) : list string :=
  filter (fun n => negb (memS n (map r_name fs)) && (if c_missing o then match find (fun e => String.eqb (r_name e) n) es with Some e => negb (a_null (r_attrs e)) | None => false end else true)) (map r_name es).
Definition unexpected_names (fs es : list rfield) : list string := filter (fun n => negb (memS n (map r_name es))) (map r_name fs).
Definition set_diffs (o : copts) (fs es : list rfield) : list diff :=
  (match missing_names o fs es, unexpected_names fs es with [], [] => [] | m, u => [DFields m u] end) ++
  (if negb (c_order o) && descends (positions fs es) then [DOrder] else []).
(* Field::explain_differences 272-345 with explain_fields_difference 673-770 *)
Fixpoint explain_f (o : copts) (e f : rfield) : list diff :=
  match e with
  | RF ae ce =>
      own_diffs o ae (r_attrs f) ++
      match set_diffs o (r_children f) ce ++
            flat_map (fun x => match position (r_name x) (r_children f) with
                               | Some p => match explain_f o x (nth p (r_children f) dummy) with [] => [] | l => [DField l] end
                               | None => []
                               end) ce with
      | [] => []
      | l => [DChildren l]
      end
  end.
Definition explain_fields (o : copts) (fs es : list rfield) : list diff :=
  set_diffs o fs es ++
  flat_map (fun x => match position (r_name x) fs with
                     | Some p => match explain_f o x (nth p fs dummy) with [] => [] | l => [DField l] end
                     | None => []
                     end) es.
(* Schema::explain_difference 68-89 *)
Definition explain_difference (o : copts) (s e : rschema) : option (list diff) :=
  match explain_fields o (rs_fields s) (rs_fields e) ++ (if c_meta o && negb (map_eqb (rs_meta s) (rs_meta e)) then [DMeta] else []) with
  | [] => None
  | l => Some l
  end.
(* check_compatible 136-147 *)
Inductive verdict := Compatible | Mismatch (why : list diff) | UnknownReason.
Definition check_compatible (o : copts) (s e : rschema) : verdict :=
  if compare_schemas o s e then Compatible
  else match explain_difference o s e with Some l => Mismatch l | None => UnknownReason end.
