(* Plain encoding of format 1: rust/lance-io/src/encodings/plain.rs.
   Simplifications: no nulls (format 1 does not store them for these types), a byte is the list of its eight bits, lowest first, counts and
   positions are unbounded (indices are u32, so that the last index 2^32-1 and blocks of half a gigabyte are left out), a read that
   reaches beyond the file is an error, concurrent reads come back in order (buffered). None: an error or a panic. *)
From Coq Require Import List Arith Bool.
Import ListNotations.
Local Open Scope nat_scope.

Definition byte := list bool.
(* DataType: types of w bytes, Boolean, FixedSizeBinary, FixedSizeList *)
Inductive ty := TPrim (w : nat) | TBool | TFsb (w : nat) | TFsl (t : ty) (n : nat).
Inductive val := VBytes (b : list byte) | VBit (b : bool) | VList (l : list val).
Definition bit_of (v : val) : bool := match v with VBit b => b | _ => false end.
Definition bytes_of (v : val) : list byte := match v with VBytes b => b | _ => [] end.
Definition items_of (v : val) : list val := match v with VList l => l | _ => [] end.
Definition slice {A} (s n : nat) (l : list A) : list A := firstn n (skipn s l).
Definition ceil (a b : nat) : nat := (a + b - 1) / b.
(* the buffer of a BooleanArray, 78-93 *)
Definition pack (l : list bool) : list byte := map (fun k => slice (8 * k) 8 (l ++ repeat false 7)) (seq 0 (ceil (length l) 8)).
(* encode_internal 66-76, encode_boolean 78-93, encode_primitive 96-121, encode_fixed_size_list 124-154 *)
Fixpoint encode (t : ty) (arrays : list (list val)) : list byte :=
  match t with
  | TFsl t' _ => encode t' (map (flat_map items_of) arrays)
  | TBool => pack (flat_map (map bit_of) arrays)
  | TPrim _ | TFsb _ => flat_map (flat_map bytes_of) arrays
  end.
(* PlainEncoder::write 50-57: the bytes that are appended to the file, at the position that is returned *)
Definition write (t : ty) (arrays : list (list val)) : list byte := match arrays with [] => [] | _ => encode t arrays end.

(* Reader::get_range *)
Definition read_range (file : list byte) (s e : nat) : option (list byte) := if e <=? length file then Some (slice s (e - s) file) else None.
(* get_byte_range 170-175 *)
Definition byte_range (t : ty) (s e : nat) : nat * nat := match t with TBool => (s / 8, ceil e 8) | TPrim w => (s * w, e * w) | _ => (0, 0) end.
(* bytes_to_array 177-223: len values from offset on; the buffer has at least the bytes needed *)
Definition to_array (t : ty) (data : list byte) (len offset : nat) : list val :=
  match t with
  | TBool => map VBit (slice offset len (concat data))
  | TPrim w => map (fun k => VBytes (slice ((offset + k) * w) w data)) (seq 0 len)
  | _ => []
  end.
(* decode_primitive 242-267 *)
Definition decode_primitive (file : list byte) (t : ty) (pos len s e : nat) : option (list val) :=
  if len <? e then None
  else let '(a, b) := byte_range t s e in
       match read_range file (pos + a) (pos + b) with
       | None => None
       | Some data => Some (to_array t data (e - s) (match t with TBool => s mod 8 | _ => 0 end))
       end.
(* FixedSizeListArray::new: the length is that of the items divided by the size; no rows if the size is zero *)
Definition group (n : nat) (l : list val) : list val := map (fun k => VList (slice (k * n) n l)) (seq 0 (length l / n)).
(* FixedSizeBinaryArray::try_new_from_values: the same of bytes; a division by zero panics *)
Definition group_bytes (n : nat) (l : list val) : option (list val) :=
  match n with 0 => None | _ => Some (map (fun k => VBytes (flat_map bytes_of (slice (k * n) n l))) (seq 0 (length l / n))) end.
(* get of a range 444-463, decode_fixed_size_list 269-300, decode_fixed_size_binary 302-325 *)
Fixpoint get (file : list byte) (t : ty) (pos len s e : nat) : option (list val) :=
  if e <=? s then Some []
  else match t with
       | TFsl t' n => option_map (group n) (get file t' pos (len * n) (s * n) (e * n))
       | TFsb w => match (if e * w <=? s * w then Some [] else decode_primitive file (TPrim 1) pos (len * w) (s * w) (e * w)) with None => None | Some l => group_bytes w l end
       | TPrim _ | TBool => decode_primitive file t pos len s e
       end.

(* cutting indices into chunks, 331-343 and 372-392: a range of positions is the list of its indices; brk start prev x: a new chunk begins at x *)
Fixpoint cut (brk : nat -> nat -> nat -> bool) (start prev : nat) (l : list nat) : list nat * list (list nat) :=
  match l with
  | [] => ([], [])
  | x :: l' => if brk start prev x then let '(c, r) := cut brk x x l' in ([], (x :: c) :: r) else let '(c, r) := cut brk start x l' in (x :: c, r)
  end.
Definition chunks (brk : nat -> nat -> nat -> bool) (l : list nat) : list (list nat) :=
  match l with [] => [] | x :: l' => let '(c, r) := cut brk x x l' in (x :: c) :: r end.
(* take_boolean 327-343 *)
Definition brk_bool (block : nat) (start prev x : nat) : bool := start / (block * 8) <? x / (block * 8).
(* make_chunked_requests 367-393 *)
Definition brk_bytes (w block : nat) (start prev x : nat) : bool := if x =? prev + 1 then false else start * w + block <? x * w.
(* byte_width of lance-arrow/src/lib.rs 112-147; None: a panic *)
Fixpoint byte_width (t : ty) : option nat := match t with TPrim w | TFsb w => Some w | TBool => None | TFsl t' n => option_map (Nat.mul n) (byte_width t') end.

Fixpoint all_some {A} (l : list (option A)) : option (list A) := match l with [] => Some [] | x :: l' => match x, all_some l' with Some a, Some b => Some (a :: b) | _, _ => None end end.
(* one chunk, 345-357 and 417-425: sub fails on an index below the first, arrow's take on one beyond the array *)
Definition take_chunk (file : list byte) (t : ty) (pos len : nat) (req : list nat) : option (list val) :=
  let s := hd 0 req in let e := last req 0 in
  match get file t pos len s (e + 1) with
  | None => None
  | Some arr => all_some (map (fun i => if i <? s then None else nth_error arr (i - s)) req)
  end.
(* take 401-430 *)
Definition take (block : nat) (file : list byte) (t : ty) (pos len : nat) (indices : list nat) : option (list val) :=
  match indices with
  | [] => Some []
  | _ => match (match t with TBool => Some (brk_bool block) | _ => option_map (fun w => brk_bytes w block) (byte_width t) end) with
         | None => None
         | Some brk => option_map (@concat val) (all_some (map (take_chunk file t pos len) (chunks brk indices)))
         end
  end.
