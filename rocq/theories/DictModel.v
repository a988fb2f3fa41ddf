(* Dictionary encoding of pages with few distinct values (file format 2.1):
   rust/lance-encoding/src/encodings/logical/primitive.rs, with the statistics of
   rust/lance-encoding/src/statistics.rs and the block compressors of
   encodings/physical/{binary,value}.rs.
   Values of a fixed width are lists of their bytes (u128 values are equal if and only
   if their bytes are).  What the mini block page does with the indices and with the
   repetition and definition levels is C109; here the items that a read asks for are any
   list of indices. *)
From Coq Require Import List Arith NArith Bool.
From Verif Require Import Lib SchedModel SerdeModel FullZipModel MiniModel.
Import ListNotations.
Local Open Scope nat_scope.

Notation value := (list N).
(* data.rs DataBlock; a block of another kind has no Cardinality statistic (1: booleans,
   structs, dictionaries, nulls) *)
Inductive block :=
| BFixed (bits : nat) (values : list value)
| BVar (bits_per_offset : nat) (offsets : list nat) (data : list N)
| BNullable (inner : block) (valid : list bool)
| BFsl (dimension : nat) (child : block)
| BOther (num_values : nat).
(* the values between the offsets; slicing panics out of bounds (None) *)
Fixpoint var_values (offs : list nat) (data : list N) : option (list value) :=
  match offs with
  | a :: ((b :: _) as t) => obind (cut a b data) (fun v => omap (cons v) (var_values t data))
  | _ => Some []
  end.
(* data.rs:926-939 *)
Fixpoint num_values (b : block) : nat :=
  match b with
  | BFixed _ l => length l
  | BVar _ offs _ => length offs - 1
  | BNullable b _ => num_values b
  | BFsl d b => num_values b / d
  | BOther n => n
  end.

Section Encode.
(* HyperLogLogPlus::count with precision 4 and a random hash state (statistics.rs
   225-256 and 365-377): any number for any values *)
Variable estimate : list value -> nat.
(* whether arithmetic is checked (a debug build) *)
Variable debug : bool.
(* statistics.rs: VariableWidthBlock 71-86, FixedWidthDataBlock 89-117 (only for 128
   bits), Nullable 181-186, FixedSizeList 200-213; None: no statistic *)
Fixpoint cardinality (b : block) : option nat :=
  match b with
  | BFixed bits l => if bits =? 128 then Some (estimate l) else None
  | BVar _ offs data => omap estimate (var_values offs data)
  | BNullable b _ => cardinality b
  | BFsl _ b => cardinality b
  | BOther _ => None
  end.
(* primitive.rs:4438-4449 *)
Definition uses_dictionary (b : block) : bool :=
  match cardinality b with
  | Some c => (c <=? 100) && (10 * c <=? num_values b)
  | None => false
  end.
(* HashMap::entry; the map as a list of its entries *)
Definition value_eqb (a b : value) : bool := if list_eq_dec N.eq_dec a b then true else false.
Fixpoint find_value (v : value) (m : list (value * nat)) : option nat :=
  match m with [] => None | (k, i) :: t => if value_eqb k v then Some i else find_value v t end.
(* 4288-4295 and 4332-4349: the indices, the values of the dictionary in order and
   curr_idx at the end.  `curr_idx += 1` overflows at 255: a panic when arithmetic is
   checked, otherwise 0, and `curr_idx - 1` is then 255 again *)
Fixpoint dict_loop (vals : list value) (map : list (value * nat)) (dict : list value) (curr_idx : nat) : res (list nat * (list value * nat)) :=
  match vals with
  | [] => Done ([], (dict, curr_idx))
  | v :: t =>
      match find_value v map with
      | Some i => match dict_loop t map dict curr_idx with Done (is, r) => Done (i :: is, r) | Failed => Failed | Panic => Panic end
      | None => if (curr_idx =? 255) && debug then Panic else
                match dict_loop t (map ++ [(v, curr_idx)]) (dict ++ [v]) ((curr_idx + 1) mod 256) with
                | Done (is, r) => Done (curr_idx :: is, r) | Failed => Failed | Panic => Panic end
      end
  end.
(* the offsets of the dictionary 4331 and 4345 *)
Fixpoint dict_offsets (len : nat) (dict : list value) : list nat :=
  match dict with [] => [len] | v :: t => len :: dict_offsets (len + length v) t end.
(* 4277-4383 dictionary_encode: the indices and the dictionary block with its
   num_values.  64-bit offsets are a todo!, other blocks unreachable! *)
Definition dictionary_encode (b : block) : res (list nat * (block * nat)) :=
  match b with
  | BFixed bits vals =>
      match dict_loop vals [] [] 0 with
      | Done (is, (dict, n)) => Done (is, (BFixed 128 dict, n))
      | Failed => Failed | Panic => Panic end
  | BVar 32 offs data =>
      match var_values offs data with
      | None => Panic
      | Some vals => match dict_loop vals [] [] 0 with
                     | Done (is, (dict, n)) => Done (is, (BVar 32 (dict_offsets 0 dict) (concat dict), n))
                     | Failed => Failed | Panic => Panic end
      end
  | _ => Panic
  end.
End Encode.

(* ---- the dictionary as a buffer of the page ---- *)
Inductive dkind := KFlat | KVariable.
(* encoder.rs:912-931 create_block_compressor; ValueEncoder (value.rs:304-315) keeps the
   bytes, VariableEncoder (binary.rs:749-789) writes the number of values, the start of
   the bytes, the offsets and the bytes *)
Definition compress_block (b : block) (n : nat) : option (dkind * list N) :=
  match b with
  | BFixed _ vals => Some (KFlat, concat vals)
  | BVar _ offs data => Some (KVariable, u32_bytes [n; 8 + 4 * length offs] ++ u32_bytes offs ++ data)
  | _ => None
  end.
(* a dictionary as read: its kind, the offsets (for KVariable), the bytes and num_values *)
Record dict := { d_kind : dkind; d_offsets : list nat; d_bytes : list N; d_num : nat }.
(* binary.rs:815-839 and value.rs:416-430 (16 bytes per value); None: a panic *)
Definition decompress_block (k : dkind) (buf : list N) : option dict :=
  match k with
  | KFlat => Some {| d_kind := KFlat; d_offsets := []; d_bytes := buf; d_num := length buf / 16 |}
  | KVariable =>
      obind (cut 0 4 buf) (fun n4 => obind (cut 4 8 buf) (fun s4 =>
      let start := N.to_nat (of_le_bytes s4) in
      if start <? 8 then None else
      obind (cut 8 start buf) (fun o => obind (cut start (length buf) buf) (fun bytes =>
      Some {| d_kind := KVariable; d_offsets := map (fun x => N.to_nat (of_le_bytes x)) (chunks_exact (length o) 4 o);
              d_bytes := bytes; d_num := N.to_nat (of_le_bytes n4) |}))))
  end.
(* data.rs:269-294 and 326-333: append of the entry idx..idx+1; None: a panic.  The
   offsets the builder makes are those of the appended lengths *)
Definition entry (d : dict) (i : nat) : option value :=
  match d_kind d with
  | KFlat => cut (i * 16) ((i + 1) * 16) (d_bytes d)
  | KVariable => obind (nth_error (d_offsets d) i) (fun s => obind (nth_error (d_offsets d) (i + 1)) (fun e => cut s e (d_bytes d)))
  end.
(* 705-728: the end of DecodeMiniBlockTask::decode, on the indices of the items.  The
   estimate of the size divides by the number of entries; finish panics when nothing
   was appended (data.rs:1596) *)
Definition dict_decode (d : dict) (is : list nat) : option (list value) :=
  if d_num d =? 0 then None else
  match is with [] => None | _ => sequence_opt (map (entry d) is) end.

(* a page: without a dictionary (C107 - C109), or the indices with the dictionary *)
Inductive page := Plain (b : block) | WithDict (indices : list nat) (k : dkind) (buf : list N).
(* primitive.rs:4397-4497 do_flush, for a block that is not all null *)
Definition encode_page (estimate : list value -> nat) (debug : bool) (b : block) : res page :=
  if uses_dictionary estimate b then
    match dictionary_encode debug b with
    | Done (is, (d, n)) => match compress_block d n with Some (k, buf) => Done (WithDict is k buf) | None => Panic end
    | Failed => Failed | Panic => Panic end
  else Done (Plain b).
(* reading the items at sel (positions in the page) of a page with a dictionary *)
Definition read_items (is : list nat) (k : dkind) (buf : list N) (sel : list nat) : option (list value) :=
  obind (decompress_block k buf) (fun d => obind (sequence_opt (map (nth_error is) sel)) (dict_decode d)).
