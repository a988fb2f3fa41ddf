(* Schemas as trees of fields: rust/lance-core/src/datatypes/{schema.rs,field.rs},
   and their conversion to and from a flat list of protobuf fields
   (rust/lance-file/src/datatypes.rs).

   Simplifications: a HashMap<String, String> is an association list, with the order
   of its entries kept by conversions; the bytes of a metadata value are the string
   itself (`into_bytes`, and `from_utf8_lossy` of bytes that came from a String);
   a dictionary's value array is an opaque number; i32 overflow of the id seed is
   not modelled. *)
From Coq Require Import List Arith NArith ZArith Bool String.
From Verif Require Import Lib.
Import ListNotations.
Local Open Scope Z_scope.

Definition smap := list (string * string).
(* lance-core field.rs:64-76 *)
Inductive encoding := EPlain | EVarBinary | EDictionary | ERle.
(* field.rs:78-86 *)
Inductive storage := SDefault | SBlob.
(* lance-core datatypes.rs:347-354: Dictionary {offset, length, values} *)
Record dict := { di_offset : N; di_length : N; di_values : option N }.
(* field.rs:121-136, without the children *)
Record attrs := { a_name : string; a_id : Z; a_parent : Z; a_type : string; a_meta : smap;
                  a_enc : option encoding; a_null : bool; a_dict : option dict; a_storage : storage }.
Inductive rfield := RF (a : attrs) (children : list rfield).
Definition r_attrs (f : rfield) : attrs := match f with RF a _ => a end.
Definition r_children (f : rfield) : list rfield := match f with RF _ c => c end.
Definition r_id (f : rfield) : Z := a_id (r_attrs f).
Definition r_name (f : rfield) : string := a_name (r_attrs f).
(* schema.rs:22-28 *)
Record rschema := { rs_fields : list rfield; rs_meta : smap }.

(* schema.rs:31-60, 297-299: fields_pre_order (the stack is the list of fields still to visit) *)
Fixpoint pre_order (f : rfield) : list rfield := match f with RF a c => RF a c :: flat_map pre_order c end.
Definition fields_pre_order (l : list rfield) : list rfield := flat_map pre_order l.
(* schema.rs:400-402 *)
Definition r_field_ids (l : list rfield) : list Z := map r_id (fields_pre_order l).

(* field.rs:803-808, schema.rs:465-467 *)
Fixpoint max_id (f : rfield) : Z :=
  match f with RF a c => Z.max (a_id a) (fold_right Z.max (-1) (map max_id c)) end.
Definition schema_max_id (l : list rfield) : option Z :=
  match l with [] => None | _ => Some (fold_right Z.max (hd (-1) (map max_id l)) (map max_id l)) end.

Definition set_ids (a : attrs) (id parent : Z) : attrs :=
  {| a_name := a_name a; a_id := id; a_parent := parent; a_type := a_type a; a_meta := a_meta a;
     a_enc := a_enc a; a_null := a_null a; a_dict := a_dict a; a_storage := a_storage a |}.
(* field.rs:819-828 *)
Fixpoint set_id (parent seed : Z) (f : rfield) : rfield * Z :=
  match f with
  | RF a c =>
      let '(id, seed1) := if a_id a <? 0 then (seed, seed + 1) else (a_id a, seed) in
      let '(c', seed2) := (fix go (l : list rfield) (seed : Z) : list rfield * Z :=
                             match l with
                             | [] => ([], seed)
                             | x :: t => let '(x', s1) := set_id id seed x in let '(t', s2) := go t s1 in (x' :: t', s2)
                             end) c seed1 in
      (RF (set_ids a id parent) c', seed2)
  end.
Fixpoint set_id_list (parent seed : Z) (l : list rfield) : list rfield * Z :=
  match l with
  | [] => ([], seed)
  | x :: t => let '(x', s1) := set_id parent seed x in let '(t', s2) := set_id_list parent s1 t in (x' :: t', s2)
  end.
(* schema.rs:494-501 *)
Definition set_field_id (max_existing : option Z) (l : list rfield) : list rfield :=
  let schema_max := match schema_max_id l with Some m => m | None => -1 end in
  let existing := match max_existing with Some m => m | None => -1 end in
  fst (set_id_list (-1) (Z.max schema_max existing + 1) l).

(* schema.rs:91-102 *)
Definition storage_eqb (a b : storage) : bool := match a, b with SDefault, SDefault | SBlob, SBlob => true | _, _ => false end.
Definition retain_storage_class (c : storage) (s : rschema) : rschema :=
  {| rs_fields := filter (fun f => storage_eqb (a_storage (r_attrs f)) c) (rs_fields s); rs_meta := rs_meta s |}.

(* The id checks of schema.rs:240-257 (Schema::validate): no negative, no duplicate id *)
Fixpoint nodupZ (l : list Z) : bool := match l with [] => true | x :: t => negb (existsb (Z.eqb x) t) && nodupZ t end.
Definition validate_ids (l : list rfield) : bool := forallb (fun i => 0 <=? i) (r_field_ids l) && nodupZ (r_field_ids l).

(** * Protobuf fields *)

(* protos/file.proto: Field (type and the deprecated members are constant) *)
Record pb_field := { pf_name : string; pf_id : Z; pf_parent : Z; pf_type : string; pf_null : bool; pf_enc : N;
                     pf_dict : option (Z * Z); pf_ext : string; pf_meta : smap; pf_storage : string }.

(* lance-file/src/datatypes.rs:166-183: `as i64` and `as usize` wrap *)
Definition two63 : N := 9223372036854775808.
Definition two64 : N := 18446744073709551616.
Definition as_i64 (n : N) : Z := if (n <? two63)%N then Z.of_N n else Z.of_N n - Z.of_N two64.
Definition as_usize (z : Z) : N := Z.to_N (z mod Z.of_N two64).
Definition enc_dict (d : dict) : Z * Z := (as_i64 (di_offset d), as_i64 (di_length d)).
Definition dec_dict (p : Z * Z) : dict := {| di_offset := as_usize (fst p); di_length := as_usize (snd p); di_values := None |}.

(* HashMap::get / HashMap::insert *)
Fixpoint sm_get (k : string) (m : smap) : option string :=
  match m with [] => None | (k', v) :: t => if String.eqb k' k then Some v else sm_get k t end.
Fixpoint sm_insert (k v : string) (m : smap) : smap :=
  match m with [] => [(k, v)] | (k', w) :: t => if String.eqb k' k then (k, v) :: t else (k', w) :: sm_insert k v t end.
Definition ext_key : string := "ARROW:extension:name".
(* field.rs:383-385 *)
Definition extension_name (a : attrs) : option string := sm_get ext_key (a_meta a).

(* datatypes.rs:54-83 *)
Definition enc_field (a : attrs) : pb_field :=
  {| pf_name := a_name a; pf_id := a_id a; pf_parent := a_parent a; pf_type := a_type a; pf_null := a_null a;
     pf_enc := match a_enc a with Some EPlain => 1 | Some EVarBinary => 2 | Some EDictionary => 3 | Some ERle => 4 | None => 0 end%N;
     pf_dict := omap enc_dict (a_dict a);
     pf_ext := match extension_name a with Some s => s | None => EmptyString end;
     pf_meta := a_meta a;
     pf_storage := match a_storage a with SDefault => "default" | SBlob => "blob" end |}.
(* datatypes.rs:18-52; None: storage_class.parse().unwrap() panics (field.rs:97-109) *)
Definition dec_storage (s : string) : option storage :=
  if String.eqb s "default" || String.eqb s EmptyString then Some SDefault
  else if String.eqb s "blob" then Some SBlob else None.
Definition dec_field (p : pb_field) : option attrs :=
  omap (fun st =>
    {| a_name := pf_name p; a_id := pf_id p; a_parent := pf_parent p; a_type := pf_type p;
       a_meta := if String.eqb (pf_ext p) EmptyString then pf_meta p else sm_insert ext_key (pf_ext p) (pf_meta p);
       a_enc := match pf_enc p with 1%N => Some EPlain | 2%N => Some EVarBinary | 3%N => Some EDictionary | 4%N => Some ERle | _ => None end;
       a_null := pf_null p; a_dict := omap dec_dict (pf_dict p); a_storage := st |})
    (dec_storage (pf_storage p)).

(* datatypes.rs:87-93, 141-150 *)
Fixpoint field_protos (f : rfield) : list pb_field := match f with RF a c => enc_field a :: flat_map field_protos c end.
Definition schema_protos (l : list rfield) : list pb_field := flat_map field_protos l.

(* schema.rs:446-457 and field.rs:863-874 (mut_field_by_id), then children.push *)
Fixpoint push_in (p : Z) (c : rfield) (f : rfield) : option rfield :=
  match f with
  | RF a ch =>
      if a_id a =? p then Some (RF a (ch ++ [c]))
      else omap (RF a) ((fix go (l : list rfield) : option (list rfield) :=
                           match l with
                           | [] => None
                           | x :: t => match push_in p c x with Some x' => Some (x' :: t) | None => omap (cons x) (go t) end
                           end) ch)
  end.
Fixpoint push_at (p : Z) (c : rfield) (l : list rfield) : option (list rfield) :=
  match l with
  | [] => None
  | x :: t => match push_in p c x with Some x' => Some (x' :: t) | None => omap (cons x) (push_at p c t) end
  end.
(* datatypes.rs:96-115; None: a panic *)
Definition add_proto (l : list rfield) (p : pb_field) : option (list rfield) :=
  obind (dec_field p) (fun a => if pf_parent p =? -1 then Some (l ++ [RF a []]) else push_at (pf_parent p) (RF a []) l).
Fixpoint add_protos (l : list rfield) (ps : list pb_field) : option (list rfield) :=
  match ps with [] => Some l | p :: t => obind (add_proto l p) (fun l' => add_protos l' t) end.
Definition schema_of_protos (ps : list pb_field) : option (list rfield) := add_protos [] ps.

(* datatypes.rs:153-164 (FieldsWithMeta from a Schema) and 122-139 (back) *)
Definition enc_schema (s : rschema) : list pb_field * smap := (schema_protos (rs_fields s), rs_meta s).
Definition dec_schema (p : list pb_field * smap) : option rschema :=
  omap (fun l => {| rs_fields := l; rs_meta := snd p |}) (schema_of_protos (fst p)).
(* Fields(schema) without the metadata, as transactions write schemas: datatypes.rs:96-115, 141-150 *)
Definition dec_fields_only (ps : list pb_field) : option rschema :=
  omap (fun l => {| rs_fields := l; rs_meta := [] |}) (schema_of_protos ps).
