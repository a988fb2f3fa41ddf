(* Bit packing of 1024 integers (rust/lance-encoding/src/compression_algo/fastlanes.rs) and the mini blocks
   made of it (rust/lance-encoding/src/encodings/physical/bitpack_fastlanes.rs 1565-1756), with the choice
   between them and plain values (rust/lance-encoding/src/encoder.rs 801-830, statistics.rs 308-360).
   Simplifications: integers are natural numbers; the types u8, u16, u32 and u64 are the number [t] of their
   bits; the four copies of the macros, one for every type, and the functions that they define for every
   width are one function of [t] and the width; slices are aligned (1722 copies them for that); assertions
   and overflow checks are those of release builds.  None is a panic. *)
From Coq Require Import List Arith NArith Bool.
From Verif Require Import Lib SerdeModel FullZipModel MiniModel.
Import ListNotations.
Local Open Scope nat_scope.

(* ---- fastlanes.rs ---- *)
(* FL_ORDER 20; LANES 24; index, 42-46 and 106-110 *)
Definition fl_order : list nat := [0; 4; 2; 6; 1; 5; 3; 7].
Definition lanes (t : nat) : nat := 1024 / t.
Definition fl_index (row lane : nat) : nat := nth (row / 8) fl_order 0 * 16 + row mod 8 * 128 + lane.
(* x << s for a type of [t] bits, which drops the upper bits; (1 << w) - 1 for w below [t] *)
Definition shl (t : nat) (x : N) (s : nat) : N := (N.shiftl x (N.of_nat s) mod 2 ^ N.of_nat t)%N.
Definition shr (x : N) (s : nat) : N := N.shiftr x (N.of_nat s).
Definition low_mask (w : nat) : N := (N.shiftl 1 (N.of_nat w) - 1)%N.
(* mask of unpack! 127-129 *)
Definition mask (t w : nat) : N := if w =? t then (2 ^ N.of_nat t - 1)%N else low_mask (w mod t).
(* l[i] = x; None: out of bounds *)
Definition put (i : nat) (x : N) (l : list N) : option (list N) := if i <? length l then Some (firstn i l ++ x :: skipn (S i) l) else None.
(* a loop that may panic *)
Fixpoint loop {A} (f : nat -> A -> option A) (is : list nat) (a : A) : option A :=
  match is with [] => Some a | i :: r => obind (f i a) (loop f r) end.

(* pack! 33-94: one row of the general case 65-89; the state is tmp and the packed array *)
Definition pack_row (t w lane : nat) (input : list N) (row : nat) (st : N * list N) : option (N * list N) :=
  obind (nth_error input (fl_index row lane)) (fun x =>
  let src := N.land x (low_mask w) in
  let tmp := if row =? 0 then src else N.lor (fst st) (shl t src ((row * w) mod t)) in
  let curr := row * w / t in
  let next := (row + 1) * w / t in
  if curr <? next then omap (pair (shr src (w - ((row + 1) * w) mod t))) (put (lanes t * curr + lane) tmp (snd st)) else Some (tmp, snd st)).
(* the lane of pack!, for a width of 1 to [t] bits *)
Definition pack_lane (t w : nat) (input : list N) (lane : nat) (packed : list N) : option (list N) :=
  if w =? t then loop (fun row p => obind (nth_error input (fl_index row lane)) (fun x => put (lanes t * row + lane) x p)) (seq 0 t) packed
  else omap snd (loop (pack_row t w lane input) (seq 0 t) (0%N, packed)).
(* unchecked_pack 206-254 and its copies, with pack_8! 1369-1377 and its copies: [packed] is the array
   written to; the width is 1 to [t], or unreachable! *)
Definition fl_pack (t w : nat) (input packed : list N) : option (list N) :=
  if (w =? 0) || (t <? w) || (length input <? 1024) || (length packed <? 1024 * w / t) then None
  else loop (pack_lane t w input) (seq 0 (lanes t)) packed.

(* unpack! 97-169: one row of the general case 134-162; the state is src and the output *)
Definition unpack_row (t w lane : nat) (packed : list N) (row : nat) (st : N * list N) : option (N * list N) :=
  let curr := row * w / t in
  let next := (row + 1) * w / t in
  let shift := (row * w) mod t in
  obind
    (if curr <? next then
       let remaining := ((row + 1) * w) mod t in
       let current := w - remaining in
       let tmp := N.land (shr (fst st) shift) (mask t current) in
       if next <? w then omap (fun src => (src, N.lor tmp (shl t (N.land src (mask t remaining)) current))) (nth_error packed (lanes t * next + lane))
       else Some (fst st, tmp)
     else Some (fst st, N.land (shr (fst st) shift) (mask t w)))
    (fun '(src, tmp) => omap (pair src) (put (fl_index row lane) tmp (snd st))).
Definition unpack_lane (t w : nat) (packed : list N) (lane : nat) (out : list N) : option (list N) :=
  if w =? t then loop (fun row o => obind (nth_error packed (lanes t * row + lane)) (fun x => put (fl_index row lane) x o)) (seq 0 t) out
  else obind (nth_error packed lane) (fun src => omap snd (loop (unpack_row t w lane packed) (seq 0 t) (src, out))).
(* unchecked_unpack 256-305 and its copies, with unpack_8! 1348-1358 and its copies *)
Definition fl_unpack (t w : nat) (packed out : list N) : option (list N) :=
  if (w =? 0) || (t <? w) || (length packed <? 1024 * w / t) || (length out <? 1024) then None
  else loop (unpack_lane t w packed) (seq 0 (lanes t)) out.

(* ---- statistics.rs ---- *)
(* slice::chunks(n); fuel is the number of values *)
Fixpoint chunks_of {A} (fuel n : nat) (l : list A) : list (list A) :=
  match fuel, l with S f, _ :: _ => firstn n l :: chunks_of f n (skipn n l) | _, _ => [] end.
(* calculate_max_bit_width 315-323: the bits of the type less the leading zeros *)
Definition chunk_width (c : list N) : nat := N.to_nat (N.size (fold_left N.lor c 0%N)).
(* max_bit_widths 310-360 for values of [k] bytes; None: the assertion 311 *)
Definition bitpackable (k : nat) : bool := (k =? 1) || (k =? 2) || (k =? 4) || (k =? 8).
Definition bit_widths (k : nat) (vals : list N) : option (list nat) :=
  match vals with [] => None | _ => Some (if bitpackable k then map chunk_width (chunks_of (length vals) 1024 vals) else [8 * k]) end.

(* ---- bitpack_fastlanes.rs ---- *)
(* one chunk of chunk_data_impl! 1598-1614, 1625-1637: its width and the packed words, which start as
   memory that was never written, [mem] *)
Definition pack_chunk (t w : nat) (input : list N) (mem : nat -> N) : option (list N) :=
  let size := 1024 * w / t in
  omap (cons (N.of_nat w mod 2 ^ N.of_nat t)%N) (fl_pack t w input (map mem (seq 0 size))).
(* chunk_data_impl! 1570-1654: the loop over all chunks but the last, and the last, which is filled with
   zeros; the words, and log_num_values and num_bytes of every chunk.  [mem i] is the memory of chunk i *)
Fixpoint pack_chunks (k i : nat) (widths : list nat) (vals : list N) (mem : nat -> nat -> N) : option (list N * list (nat * nat)) :=
  let bytes w := N.to_nat (N.of_nat ((1 + 1024 * w / (8 * k)) * k) mod 65536) in
  match widths with
  | [] => None
  | [w] =>
      let m := length vals mod 1024 in
      let n := if m =? 0 then 1024 else m in
      if length vals <? n then None else
      omap (fun p => (p, [(0, bytes w)])) (pack_chunk (8 * k) w (skipn (length vals - n) vals ++ repeat 0%N (1024 - n)) (mem i))
  | w :: r =>
      if length vals <? 1024 * (i + 1) then None else
      obind (pack_chunk (8 * k) w (firstn 1024 (skipn (1024 * i) vals)) (mem i)) (fun p =>
      omap (fun '(ps, cs) => (p ++ ps, (10, bytes w) :: cs)) (pack_chunks k (S i) r vals mem))
  end.
(* BitpackMiniBlockEncoder::chunk_data 1661-1674: values and words are stored with the lowest byte first *)
Definition bitpack_blocks (k : nat) (widths : list nat) (vals : list (list N)) (mem : nat -> nat -> N) : option blocks :=
  omap (fun '(ws, cs) => {| b_data := flat_map (le_bytes k) ws; b_chunks := cs |}) (pack_chunks k 0 widths (map of_le_bytes vals) mem).
(* BitpackMiniBlockDecompressor::decompress 1711-1756: shrink_to leaves all 1024 values in the buffer *)
Definition bitpack_decode (k : nat) (bytes : list N) (n : nat) : option (list (list N)) :=
  if (length bytes <? 8) || (1024 <? n) || negb (bitpackable k) then None else
  let width := of_le_bytes (firstn k bytes) in
  let chunk := skipn k bytes in
  if negb (length chunk mod k =? 0) || negb (N.of_nat (length chunk / k * k) =? width * 1024 / 8)%N then None else
  omap (map (le_bytes k)) (fl_unpack (8 * k) (N.to_nat width) (map of_le_bytes (chunks_exact (length chunk) k chunk)) (repeat 0%N 1024)).

(* ---- encoder.rs ---- *)
(* create_miniblock_compressor 801-830 and compress: the blocks, and whether they are bit packed, which the
   encoding in the page says *)
Definition fixed_blocks (k : nat) (vals : list (list N)) (mem : nat -> nat -> N) : option (bool * blocks) :=
  obind (bit_widths k (map of_le_bytes vals)) (fun widths =>
  if negb (existsb (Nat.eqb 0) widths) && bitpackable k then omap (pair true) (bitpack_blocks k widths vals mem)
  else omap (pair false) (value_blocks k vals)).
(* create_miniblock_decompressor, decoder.rs 508-532 *)
Definition fixed_decode (k : nat) (packed : bool) : list N -> nat -> option (list (list N)) := if packed then bitpack_decode k else value_decode k.
