(* Dictionary columns in file format 2.0: how dictionary arrays become a block (rust/lance-encoding/src/data.rs
   1232-1380, 1397-1430, 1505-1520), how it is written (encodings/physical/dictionary.rs AlreadyDictionaryEncoder
   225-290, encoder.rs 543-555) and read (physical.rs 245-262, dictionary.rs 61-163, data.rs 738-762,
   encodings/logical/primitive.rs 2961-2991).
   Simplifications: those of FlatModel and BinEncModel; indices are numbers (a signed index of a valid row is not
   negative), their bytes little-endian; concatenated dictionary values are kept as the list of the arrays they came
   from; the concatenation of dictionary arrays is arrow's and is a parameter. *)
From Coq Require Import List Arith NArith Bool Lia.
From Verif Require Import Lib PageModel ListEncModel ListEncProofs SerdeModel FlatModel.
From Verif Require BinEncModel BinEncProofs.
Import ListNotations.
Local Open Scope nat_scope.

(* ---- dictionary arrays ---- *)
(* key types: bytes and sign; max_index_val, data.rs 1275-1287 *)
Record kty := { k_bytes : nat; k_signed : bool }.
Definition k_max (k : kty) : N := (2 ^ (8 * N.of_nat (k_bytes k) - (if k_signed k then 1 else 0)) - 1)%N.
Definition u32 : kty := {| k_bytes := 4; k_signed := false |}.
(* value types: those of FlatModel, strings with 32- or 64-bit offsets *)
Inductive vty := VTFlat (t : fty) | VTStr (large : bool).
Inductive dvals := DFlat (arrs : list farr) | DStr (arrs : list (larr nat)).
Record darr := { da_keys : list N; da_kvalid : option (list bool); da_vals : dvals }.
Definition str_val (o : option (list nat)) : lval := match o with Some b => VBytes (map N.of_nat b) | None => VNull end.
Definition dv_logical (vt : vty) (v : dvals) : list lval :=
  match vt, v with
  | VTFlat t, DFlat arrs => flat_map (logical t) arrs
  | VTStr _, DStr arrs => map str_val (BinEncProofs.strings_of arrs)
  | _, _ => []
  end.
Definition dv_len (v : dvals) : nat :=
  match v with DFlat arrs => sumn (map a_len arrs) | DStr arrs => sumn (map BinEncModel.rows_in_array arrs) end.
(* the validity bitmap of the values, if there is one *)
Definition dv_valid (v : dvals) : option (list bool) :=
  match v with
  | DFlat arrs => if forallb (fun a => match a_valid a with None => true | _ => false end) arrs then None else Some (flat_map valid_bits arrs)
  | DStr arrs =>
      if forallb (fun a => match la_valid a with None => true | _ => false end) arrs then None
      else Some (flat_map (fun a => match la_valid a with Some b => b | None => repeat true (BinEncModel.rows_in_array a) end) arrs)
  end.
Definition key_bits (a : darr) : list bool := match da_kvalid a with Some b => b | None => repeat true (length (da_keys a)) end.
(* the rows of a dictionary array *)
Definition da_rows (vt : vty) (a : darr) : list lval :=
  map (fun p : bool * N => if fst p then nth (N.to_nat (snd p)) (dv_logical vt (da_vals a)) VNull else VNull) (combine (key_bits a) (da_keys a)).
(* DictionaryArray::logical_nulls (arrow): nulls of the keys and nulls of the values they point to *)
Definition key_null (b : list bool) (p : bool * N) : bool := if fst p then nth (N.to_nat (snd p)) b true else false.
Definition da_nulls (a : darr) : option (list bool) :=
  match dv_valid (da_vals a) with None => da_kvalid a | Some b => Some (map (key_null b) (combine (key_bits a) (da_keys a))) end.
Definition da_bits (a : darr) : list bool := match da_nulls a with Some b => b | None => repeat true (length (da_keys a)) end.
(* extract_nulls, data.rs 1397-1430 *)
Definition da_extract (arrays : list darr) (n : nat) : nullability :=
  if forallb (fun a => match da_nulls a with None => true | Some _ => false end) arrays then NNone
  else let bits := flat_map da_bits arrays in
       if length (filter negb bits) =? n then NAll else NSome bits.

(* ---- to a block ---- *)
Definition concat_of := kty -> list darr -> option darr.
(* casting the keys: null slots become zero *)
Definition cast_keys (a : darr) : darr :=
  {| da_keys := map (fun p : bool * N => if fst p then snd p else 0%N) (combine (key_bits a) (da_keys a)); da_kvalid := da_kvalid a; da_vals := da_vals a |}.
(* concat_dict_arrays 1234-1273: the key type and the array; None: unimplemented! *)
Definition concat_dict (cat : concat_of) (k : kty) (arrays : list darr) : option (kty * darr) :=
  match cat k arrays with
  | Some a => Some (k, a)
  | None => omap (fun a => (u32, a)) (cat u32 (map cast_keys arrays))
  end.
Fixpoint first_false (b : list bool) (i : nat) : option nat := match b with [] => None | true :: t => first_false t (S i) | false :: _ => Some i end.
Definition first_invalid (v : dvals) : option nat := match dv_valid v with Some b => first_false b 0 | None => None end.
Definition push_null (vt : vty) (v : dvals) : dvals :=
  match v with
  | DFlat arrs => DFlat (arrs ++ [null_arr (match vt with VTFlat t => t | _ => TBool end) 1])
  | DStr arrs => DStr (arrs ++ [{| la_offsets := [0; 0]; la_valid := Some [false]; la_values := [] |}])
  end.
Record dblock := { db_key : kty; db_keys : list N; db_vals : dvals }.
(* arrow_dictionary_to_data_block 1305-1380 *)
Definition dict_block (cat : concat_of) (k : kty) (vt : vty) (arrays : list darr) (validity : option (list bool)) : option dblock :=
  match concat_dict cat k arrays with
  | None => None
  | Some (k1, a) =>
      match validity with
      | None => Some {| db_key := k1; db_keys := da_keys a; db_vals := da_vals a |}
      | Some v =>
          let put keys i := map (fun p : bool * N => if fst p then snd p else N.of_nat i) (combine v keys) in
          match first_invalid (da_vals a) with
          | Some i =>
              (* 1351-1355: the cast of an index that does not fit gives a null, whose bytes are zero *)
              Some {| db_key := k1; db_keys := put (da_keys a) (if (k_max k1 <? N.of_nat i)%N then 0 else i); db_vals := da_vals a |}
          | None =>
              let i := dv_len (da_vals a) in
              let vals := push_null vt (da_vals a) in
              if (k_max k1 <? N.of_nat i)%N then
                if (k_max u32 <=? k_max k1)%N then None
                else Some {| db_key := u32; db_keys := put (da_keys (cast_keys a)) i; db_vals := vals |}
              else Some {| db_key := k1; db_keys := put (da_keys a) i; db_vals := vals |}
          end
      end
  end.
Definition da_len (a : darr) : nat := length (da_keys a).
(* DataBlock::from_arrays 1431-1545 for dictionaries, and the all null block of AlreadyDictionaryEncoder::encode,
   dictionary.rs 234-250 *)
Definition dict_from_arrays (cat : concat_of) (k : kty) (vt : vty) (arrays : list darr) : option dblock :=
  let n := sumn (map da_len arrays) in
  let nulls m := Some {| db_key := k; db_keys := repeat 0%N m; db_vals := push_null vt (match vt with VTFlat _ => DFlat [] | VTStr _ => DStr [] end) |} in
  if match arrays with [] => true | _ => n =? 0 end then nulls 0
  else match da_extract arrays n with
       | NAll => nulls n
       | NSome bits => dict_block cat k vt arrays (Some bits)
       | NNone => dict_block cat k vt arrays None
       end.

(* ---- writing ---- *)
Inductive ipage := IFlat (e : enc) | IStr (p : BinEncModel.bpage).
Record dpage := { dp_bufs : list (list N); dp_idx : enc; dp_items : ipage; dp_n : nat }.
(* AlreadyDictionaryEncoder::encode 251-275: the indices with the encoder for the key type, then the items; the
   buffers of strings are kept apart *)
Definition dict_encode (vt : vty) (b : dblock) : option dpage :=
  let kw := k_bytes (db_key b) in
  match encode (choose (TFixed kw)) (BFixed (8 * kw) (flat_map (le_bytes kw) (db_keys b)) (length (db_keys b))) 0 with
  | None => None
  | Some (y, e, j) =>
      let m := dv_len (db_vals b) in
      match vt, db_vals b with
      | VTFlat t, DFlat arrs =>
          match encode (choose t) (from_arrays t arrs m) j with
          | Some (y', e', _) => Some {| dp_bufs := buffers y ++ buffers y'; dp_idx := e; dp_items := IFlat e'; dp_n := m |}
          | None => None
          end
      | VTStr _, DStr arrs => Some {| dp_bufs := buffers y; dp_idx := e; dp_items := IStr (BinEncModel.bin_encode (BinEncModel.to_block arrs)); dp_n := m |}
      | _, _ => None
      end
  end.

(* ---- reading ---- *)
(* the items, dictionary.rs 82-88, 113-127 and data.rs 752.  Strings: the decoder is made for the dictionary type, so
   the offsets have 32 bits (physical.rs 224-235); an array with 64-bit offsets made of them panics *)
Definition read_items (vt : vty) (p : dpage) : option (list lval) :=
  match vt, dp_items p with
  | VTFlat t, IFlat e => obind (sched_of (dp_bufs p) e) (fun s => obind (decode (schedule_ranges s [(0, dp_n p)]) 0 (dp_n p)) (fun b => omap (logical t) (into_arrow t b)))
  | VTStr large, IStr q => if large then None else omap (fun d => map str_val (lists_of (BinEncModel.bin_decode d 0 (dp_n p)))) (BinEncModel.bin_load q [(0, dp_n p)])
  | _, _ => None
  end.
(* the indices, DirectDictionaryPageDecoder::decode 139-152 and data.rs 751: whatever their width, their bytes become
   an array of the key type of the schema *)
Definition read_keys (k : kty) (p : dpage) (rs : list range) (skip n : nat) : option (list N) :=
  obind (sched_of (dp_bufs p) (dp_idx p)) (fun s => obind (decode (schedule_ranges s rs) skip n) (fun b =>
  match b with
  | BFixed _ _ _ => match into_arrow (TFixed (k_bytes k)) b with Some (AFixed vals _) => Some (map of_le_bytes vals) | _ => None end
  | _ => None
  end)).
Fixpoint all_some {A} (l : list (option A)) : option (list A) :=
  match l with [] => Some [] | Some x :: t => omap (cons x) (all_some t) | None :: _ => None end.
(* PrimitiveFieldDecodeTask::decode, primitive.rs 2961-2991: the rows; None: an index outside the dictionary *)
Definition read_page_rows (k : kty) (vt : vty) (p : dpage) (rs : list range) (skip n : nat) : option (list lval) :=
  obind (read_items vt p) (fun items => obind (read_keys k p rs skip n) (fun keys =>
  all_some (map (fun key => if (key <=? k_max k)%N && (key <? N.of_nat (length items))%N then nth_error items (N.to_nat key) else None) keys))).
Definition read_dict (cat : concat_of) (k : kty) (vt : vty) (arrays : list darr) (rs : list range) (skip n : nat) : option (list lval) :=
  obind (dict_from_arrays cat k vt arrays) (fun b => obind (dict_encode vt b) (fun p => read_page_rows k vt p rs skip n)).

(* arrow's concatenation when the dictionaries are appended: one array is given back; otherwise the values one after
   another and the keys shifted; None: DictionaryKeyOverflowError *)
Definition app_vals (a b : dvals) : dvals := match a, b with DFlat x, DFlat y => DFlat (x ++ y) | DStr x, DStr y => DStr (x ++ y) | _, _ => a end.
Definition app_dict (a b : darr) : darr :=
  {| da_keys := da_keys a ++ map (fun p : bool * N => if fst p then (snd p + N.of_nat (dv_len (da_vals a)))%N else 0%N) (combine (key_bits b) (da_keys b));
     da_kvalid := Some (key_bits a ++ key_bits b); da_vals := app_vals (da_vals a) (da_vals b) |}.
Definition plain_cat : concat_of := fun k arrays =>
  match arrays with
  | [] => None
  | [a] => Some a
  | a :: more => let r := fold_left app_dict more a in if (k_max k <? N.of_nat (dv_len (da_vals r)) - 1)%N then None else Some r
  end.
