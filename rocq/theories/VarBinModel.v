(* Variable length encoding of format 1 (strings and binaries): rust/lance-io/src/encodings/binary.rs.
   Simplifications: counts and positions are unbounded, the positions are read through PlainDecoder, which returns what was written (C138),
   so they are a list beside the file, a read that reaches beyond the file is an error, concurrent reads come back in order (buffered),
   assertions for debugging are left out. None: an error or a panic. *)
From Coq Require Import List Arith Bool.
Import ListNotations.
Local Open Scope nat_scope.

Section VarBin.
  Context {B : Type}.
  Definition vslice {A} (s n : nat) (l : list A) : list A := firstn n (skipn s l).
  (* GenericByteArray: the offsets and the values; the encoder does not look at the nulls *)
  Record barray := { b_offsets : list nat; b_data : list B }.
  (* encode_typed_arr 48-87: the bytes written and the positions; tell: where the file ends before *)
  Fixpoint encode_arrays (last_offset : nat) (arrs : list barray) : list B * list nat :=
    match arrs with
    | [] => ([], [])
    | a :: l =>
        let start := hd 0 (b_offsets a) in
        let b := vslice start (last (b_offsets a) 0 - start) (b_data a) in
        let ps := map (fun o => o - start + last_offset) (tl (b_offsets a)) in
        let '(bs, qs) := encode_arrays (last ps last_offset) l in (b ++ bs, ps ++ qs)
    end.
  Definition encode_var (tell : nat) (arrs : list barray) : list B * list nat := let '(bs, ps) := encode_arrays tell arrs in (bs, tell :: ps).

  (* the values of an array given by offsets and bytes; count_nulls 167-184: an empty value is a null *)
  Fixpoint values (nullable : bool) (offsets : list nat) (bytes : list B) : list (option (list B)) :=
    match offsets with
    | a :: t => match t with
      | b :: _ => (if nullable && (a =? b) then None else Some (vslice a (b - a) bytes)) :: values nullable t bytes
      | [] => []
      end
    | [] => []
    end.
  (* get_range 192-233: offsets and bytes of rows a to b *)
  Definition range_raw (file : list B) (positions : list nat) (a b : nat) : option (list nat * list B) :=
    if length positions <=? b then None
    else let start := nth a positions 0 in let e := nth b positions 0 in
         let offsets := map (fun p => p - start) (vslice a (b - a + 1) positions) in
         if e <=? start then Some (offsets, [])
         else if e <=? length file then Some (offsets, vslice start (e - start) file) else None.
  (* get_positions 156-165; the page has len rows *)
  Definition get_positions (positions : list nat) (len s e : nat) : option (list nat) := if len + 1 <? e + 1 then None else Some (vslice s (e + 1 - s) positions).
  (* get of a range 452-469 *)
  Definition get_var (nullable : bool) (file : list B) (positions : list nat) (len s e : nat) : option (list (option (list B))) :=
    match get_positions positions len s e with
    | None => None
    | Some ps => match range_raw file ps 0 (e - s) with None => None | Some (offsets, bytes) => Some (values nullable offsets bytes) end
    end.

  (* plan_take_chunks 248-286; i: the position in the indices, start_idx: that of the first index of the chunk, start_val: that index,
     next: one more than the last index (last_idx + 1) *)
  Fixpoint plan (positions : list nat) (min_io : nat) (i start_idx start_val next : nat) (contig : bool) (acc : list nat) (l : list nat) : list (list nat * bool) :=
    match l with
    | [] => [(acc, contig)]
    | c :: l' =>
        let cc := (c =? start_idx) || (c =? next) in
        if negb cc && (nth start_val positions 0 + min_io <? nth c positions 0)
        then (acc, contig) :: plan positions min_io (S i) i c (S c) true [c] l'
        else plan positions min_io (S i) start_idx start_val (S c) (contig && cc) (acc ++ [c]) l'
    end.
  (* one chunk, 334-369: the bytes appended to the buffer and the lengths of the values *)
  Definition take_one (file : list B) (positions : list nat) (ch : list nat * bool) : option (list B * list nat) :=
    let '(req, contig) := ch in
    let s := hd 0 req in let e := last req 0 in
    match range_raw file positions s (e + 1) with
    | None => None
    | Some (offsets, bytes) =>
        if existsb (fun i => (i <? s) || (length offsets <=? i - s + 1)) req then None
        else let len i := nth (i - s + 1) offsets 0 - nth (i - s) offsets 0 in
             Some (if contig then bytes else flat_map (fun i => vslice (nth (i - s) offsets 0) (len i) bytes) req, map len req)
    end.
  Fixpoint take_all (file : list B) (positions : list nat) (l : list (list nat * bool)) : option (list B * list nat) :=
    match l with
    | [] => Some ([], [])
    | c :: l' => match take_one file positions c, take_all file positions l' with Some (b, n), Some (b', n') => Some (b ++ b', n ++ n') | _, _ => None end
    end.
  Fixpoint offsets_of (k : nat) (lens : list nat) : list nat := k :: match lens with [] => [] | n :: l => offsets_of (k + n) l end.
  (* take 298-394: build checks that the offsets are inside the buffer *)
  Definition take_var (min_io : nat) (nullable : bool) (file : list B) (positions : list nat) (len : nat) (indices : list nat) : option (list (option (list B))) :=
    match indices with
    | [] => Some []
    | s :: _ =>
        let e := last indices 0 in
        match get_positions positions len s (e + 1) with
        | None => None
        | Some ps =>
            if existsb (fun i => (i <? s) || (length ps <=? i - s + 1)) indices then None
            else match take_all file ps (plan ps min_io 0 0 0 0 true [] (map (fun i => i - s) indices)) with
                 | None => None
                 | Some (buffer, lens) => let offsets := offsets_of 0 lens in
                     if length buffer <? last offsets 0 then None else Some (values nullable offsets buffer)
                 end
        end
    end.
End VarBin.
Arguments barray : clear implicits.
