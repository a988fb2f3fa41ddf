(* Strings and binary values in file format 2.0: rust/lance-encoding/src/encodings/physical/binary.rs
   with the conversion of arrow arrays in rust/lance-encoding/src/data.rs.
   Simplifications: numbers are natural numbers (offsets do not overflow); an array of strings is a
   list array of bytes (ListEncModel.larr); the indices and the bytes are flat buffers whose decoders
   give the values at the ranges asked for; compression of the bytes, dictionaries and FSST are left
   out, and so is I/O. *)
From Coq Require Import List Arith Bool Lia.
From Verif Require Import Lib PageModel ListEncModel.
Import ListNotations.
Local Open Scope nat_scope.

(* ---- arrow arrays to a block ---- *)
(* stitch_offsets, data.rs 1122-1161 *)
Definition stitch (os : list (list nat)) : list nat :=
  fold_left (fun dest o => match o with [] => dest | start :: t => dest ++ map (fun x => x + last dest 0 - start) t end) os [0].
(* VariableWidthBlock, data.rs 579-592, with the nulls of a NullableDataBlock *)
Record vblock := { vb_offsets : list nat; vb_bytes : list nat; vb_nulls : option (list bool) }.
Definition rows_in_array (a : larr nat) : nat := length (la_offsets a) - 1.
(* extract_nulls, data.rs 1397-1425 *)
Inductive nullability := NoNulls | AllNulls | SomeNulls (v : list bool).
Definition extract_nulls (arrs : list (larr nat)) (n : nat) : nullability :=
  if existsb (fun a => match la_valid a with Some _ => true | None => false end) arrs then
    let v := flat_map (fun a => match la_valid a with Some v => v | None => repeat true (rows_in_array a) end) arrs in
    if length (filter negb v) =? n then AllNulls else SomeNulls v
  else NoNulls.
(* DataBlock::from_arrays 1427-1545 and arrow_binary_to_data_block 1163-1201; all nulls as in
   BinaryEncoder::all_null_variable_width and encode, binary.rs 376-394, 472-485 *)
Definition to_block (arrs : list (larr nat)) : vblock :=
  let n := sumn (map rows_in_array arrs) in
  let nulls := {| vb_offsets := repeat 0 (n + 1); vb_bytes := []; vb_nulls := Some (repeat false n) |} in
  if n =? 0 then nulls else
  let b v := {| vb_offsets := stitch (map la_offsets arrs);
                vb_bytes := flat_map (fun a => slice (hd 0 (la_offsets a)) (last (la_offsets a) 0) (la_values a)) arrs; vb_nulls := v |} in
  match extract_nulls arrs n with NoNulls => b None | SomeNulls v => b (Some v) | AllNulls => nulls end.

(* ---- encoding ---- *)
(* get_indices_from_string_arrays, binary.rs 401-463 (the assertion at 439 is left out): the ends of the strings *)
Fixpoint ends (acc : nat) (os : list nat) : list nat :=
  match os with a :: ((b :: _) as t) => (acc + (b - a)) :: ends (acc + (b - a)) t | _ => [] end.
(* the encoded page, BinaryEncoder::encode 487-529: indices, null_adjustment and bytes *)
Record bpage := { bp_indices : list nat; bp_adj : nat; bp_bytes : list nat }.
Definition bin_encode (b : vblock) : bpage :=
  let ix := ends 0 (vb_offsets b) in
  match ix with
  | [] => {| bp_indices := []; bp_adj := 0; bp_bytes := vb_bytes b |}
  | _ =>
      let adj := last ix 0 + 1 in
      {| bp_indices := match vb_nulls b with Some v => map (fun p : nat * bool => if snd p then fst p else fst p + adj) (combine ix v) | None => ix end;
         bp_adj := adj; bp_bytes := vb_bytes b |}
  end.

(* ---- reading ---- *)
(* IndicesNormalizer::normalize 62-68 *)
Definition norm (adj v : nat) : bool * nat := if adj <=? v then (false, v - adj) else (true, v).
(* the windows of IndicesNormalizer::extend 78-85; None: the difference underflows *)
Fixpoint ext_windows (adj prev lst : nat) (w : list nat) : option (list nat * list bool) :=
  match w with
  | [] => Some ([], [])
  | x :: t =>
      let '(ok, v) := norm adj x in
      if v <? prev then None
      else let next := v - prev + lst in omap (fun '(ix, vs) => (next :: ix, ok :: vs)) (ext_windows adj v next t)
  end.
(* extend 70-86 *)
Definition extend (adj lst : nat) (new : list nat) (is_start : bool) : option (list nat * list bool) :=
  match new with
  | [] => None
  | x :: t =>
      let '(ok, v) := norm adj x in
      if is_start then omap (fun '(ix, vs) => (v :: ix, ok :: vs)) (ext_windows adj v (lst + v) t)
      else ext_windows adj v lst t
  end.
(* the loop over the ranges 187-219: [used] is curr_offset_index, [lst] the last index pushed *)
Fixpoint bin_loop (vals : list nat) (adj : nat) (rs : list range) (used lst : nat) : option (list range * list nat * list bool) :=
  match rs with
  | [] => Some ([], [], [])
  | (s, e) :: t =>
      let n := e - s in
      let cur := if s =? 0 then slice 0 n vals else slice used (used + (n + 1)) vals in
      let used' := if s =? 0 then n else used + (n + 1) in
      let first := if s =? 0 then 0 else snd (norm adj (hd 0 cur)) in
      let lastv := snd (norm adj (last cur 0)) in
      obind (extend adj lst cur (s =? 0)) (fun '(ix, vs) =>
      omap (fun '(rs, ix', vs') => ((if first =? lastv then [] else [(first, lastv)]) ++ rs, ix ++ ix', vs ++ vs'))
           (bin_loop vals adj t used' (last ix lst)))
  end.
(* BinaryPageScheduler::schedule_ranges 134-251: the decoder for some ranges of a page *)
Record bdec := { bd_indices : list nat; bd_valid : list bool; bd_bytes : list nat }.
Definition bin_load (p : bpage) (rs : list range) : option bdec :=
  let vals := read_page (bp_indices p) (map (fun r => (fst r - 1, snd r)) rs) in
  omap (fun '(bs, ix, vs) => {| bd_indices := 0 :: ix; bd_valid := vs; bd_bytes := read_page (bp_bytes p) bs |}) (bin_loop vals (bp_adj p) rs 0 0).
(* BinaryPageDecoder::decode 276-351 *)
Definition bin_decode (d : bdec) (skip n : nat) : larr nat :=
  let v := slice skip (skip + n) (bd_valid d) in
  let os := slice skip (skip + (n + 1)) (bd_indices d) in
  {| la_offsets := map (fun x => x - hd 0 os) os;
     la_valid := if existsb negb v then Some v else None;
     la_values := slice (nth skip (bd_indices d) 0) (nth (skip + n) (bd_indices d) 0) (bd_bytes d) |}.
