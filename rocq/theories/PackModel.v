(* Pages of packed structs in file format 2.0: all fields of a row lie beside each other in one buffer. How arrays of
   structs become a block (rust/lance-encoding/src/data.rs 1427-1440, 1488-1503, 1524-1540; statistics.rs 150-160,
   201-213, 285-296, 409-425), how it is written (encodings/physical/packed_struct.rs 158-250, buffer.rs 300-338,
   data.rs 431-451) and how ranges of rows are read back with some of the fields (encodings/physical.rs 125-158,
   packed_struct.rs 53-155, data.rs 462-477, 657-680; byte_width: rust/lance-arrow/src/lib.rs 112-148).
   Simplifications: those of FlatModel; the fields are values, booleans and fixed size lists (structs inside a packed
   struct are left out: byte_width panics for them); a read past the end of a buffer gives None. *)
From Coq Require Import List Arith NArith Bool Lia.
From Verif Require Import Lib PageModel FlatModel.
Import ListNotations.
Local Open Scope nat_scope.

(* ---- arrays of structs ---- *)
Record sarr := { s_len : nat; s_children : list farr; s_valid : option (list bool) }.
Definition no_farr : farr := AFixed [] None.
Definition ty_at (ts : list fty) (k : nat) : fty := nth k ts TBool.
Definition child_at (k : nat) (a : sarr) : farr := nth k (s_children a) no_farr.

(* ---- blocks ---- *)
(* get_stat(MaxLength), statistics.rs 162-213, 285-296: whether a block has that statistic *)
Fixpoint has_length (b : block) : bool := match b with BAllNull _ => false | BNullable b' _ => has_length b' | BFixed _ _ _ => true | BFsl c _ => has_length c end.
(* DataBlock::from_arrays for structs: the blocks of the children. None: the block is not a plain struct (as_struct
   and unwrap panic, packed_struct.rs 173) or a statistic is missing (a panic in compute_stat) *)
Definition struct_block (ts : list fty) (arrays : list sarr) : option (list block) :=
  let n := sumn (map s_len arrays) in
  if match arrays with [] => true | _ => n =? 0 end then None
  else if forallb (fun a => match s_valid a with None => true | Some _ => false end) arrays then
    let blocks := map (fun k => from_arrays (ty_at ts k) (map (child_at k) arrays) n) (seq 0 (length ts)) in
    if forallb has_length blocks then Some blocks else None
  else None.

(* ---- writing ---- *)
Fixpoint opt_all {A} (l : list (option A)) : option (list A) :=
  match l with [] => Some [] | o :: t => match o, opt_all t with Some x, Some y => Some (x :: y) | _, _ => None end end.
(* try_into_flat, data.rs 431-451, and the match of packed_struct.rs 198-216: bits per value, bytes, values *)
Fixpoint into_flat (b : block) : option (nat * list N * nat) :=
  match b with
  | BFixed bits data n => Some (bits, data, n)
  | BFsl c d => match into_flat c with Some (bits, data, n) => if d =? 0 then None else Some (bits * d, data, n / d) | None => None end
  | _ => None
  end.
(* one child: packed_struct.rs 179-216 and, for whole bytes only, buffer.rs 308-314 *)
Definition pack_child (t : fty) (b : block) : option (nat * list N * nat * enc) :=
  match encode (choose t) b 0 with
  | Some (y, e, _) => match into_flat y with Some (bits, data, n) => if bits mod 8 =? 0 then Some (bits / 8, data, n, e) else None | None => None end
  | None => None
  end.
(* zip_into_one 315-337 *)
Definition zip_row (fields : list (nat * list N)) (i : nat) : list N := flat_map (fun f => slice (i * fst f) (i * fst f + fst f) (snd f)) fields.
Definition zip_into_one (fields : list (nat * list N)) (n : nat) : option (list N) :=
  if forallb (fun f => n * fst f <=? length (snd f)) fields then Some (flat_map (zip_row fields) (seq 0 n)) else None.
(* PackedStructEncoder::encode: the buffer and the descriptions of the children *)
Definition write_packed (ts : list fty) (arrays : list sarr) : option (list N * list enc) :=
  obind (struct_block ts arrays) (fun blocks =>
  obind (opt_all (map (fun p => pack_child (fst p) (snd p)) (combine ts blocks))) (fun fields =>
  match fields with
  | [] => None
  | (_, _, n, _) :: _ => omap (fun z => (z, map snd fields)) (zip_into_one (map (fun f => (fst (fst (fst f)), snd (fst (fst f)))) fields) n)
  end)).

(* ---- reading ---- *)
(* byte_width_opt, lance-arrow/src/lib.rs 112-142 *)
Fixpoint byte_width (t : fty) : option nat := match t with TFixed w => Some w | TBool => None | TFsl t' d => omap (fun w => d * w) (byte_width t') end.
(* self.data[start..start + w] *)
Definition bytes_at (data : list N) (start w : nat) : option (list N) := if start + w <=? length data then Some (slice start (start + w) data) else None.
(* FixedSizeListBlock::from_flat, data.rs 462-477 *)
Fixpoint from_flat (t : fty) (bits : nat) (data : list N) (n : nat) : option block :=
  match t with
  | TFsl t' d => if d =? 0 then None else omap (fun c => BFsl c d) (from_flat t' (bits / d) data (n * d))
  | _ => Some (BFixed bits data n)
  end.
(* PackedStructPageDecoder::decode 108-155: the fields from [off] on *)
Fixpoint decode_fields (fs : list (fty * nat)) (total : nat) (data : list N) (skip n off : nat) : option (list block) :=
  match fs with
  | [] => Some []
  | (t, w) :: more =>
      match opt_all (map (fun r => bytes_at data (skip * total + (off + r * total)) w) (seq 0 n)) with
      | Some chunks =>
          match from_flat t (w * 8) (concat chunks) n, decode_fields more total data skip n (off + w) with
          | Some b, Some bs => Some (b :: bs)
          | _, _ => None
          end
      | None => None
      end
  end.
(* the rows of a struct without nulls, StructDataBlock::into_arrow 657-680 *)
Definition zip_columns (n : nat) (cols : list (list lval)) : list lval := map (fun i => VList (map (fun c => nth i c VNull) cols)) (seq 0 n).
Definition packed_rows (ts : list fty) (n : nat) (bs : list block) : option (list lval) :=
  omap (fun arrs => zip_columns n (map (fun p => logical (fst p) (snd p)) (combine ts arrs))) (opt_all (map (fun p => into_arrow (fst p) (snd p)) (combine ts bs))).
(* a page read with the fields [js] of the struct: decoder_from_packed_struct (the schedulers of the fields are built
   from the first descriptions, but not used), schedule_ranges 53-99, decode *)
Definition read_packed (ts : list fty) (js : list nat) (arrays : list sarr) (rs : list range) (skip n : nat) : option (list lval) :=
  let ts' := map (ty_at ts) js in
  obind (write_packed ts arrays) (fun p =>
  obind (opt_all (map (fun i => obind (nth_error (snd p) i) (sched_of [fst p])) (seq 0 (length js)))) (fun _ =>
  obind (opt_all (map byte_width ts')) (fun ws =>
  let total := sumn ws in
  let data := flat_map (fun r => slice (fst r * total) (snd r * total) (fst p)) rs in
  obind (decode_fields (combine ts' ws) total data skip n 0) (packed_rows ts' n)))).
