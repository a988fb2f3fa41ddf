(* Pages of fixed width values, booleans and fixed size lists in file format 2.0: how arrays become a block
   (rust/lance-encoding/src/data.rs 1203-1230, 1384-1545), how the block is written
   (encodings/physical/basic.rs 177-237, value.rs 317-345, fixed_size_list.rs 85-130, encoder.rs 518-531, 625-660)
   and how ranges of its rows are read back (encodings/physical.rs 57-100, 165-200, value.rs 40-245,
   bitmap.rs 24-125, basic.rs 70-165, fixed_size_list.rs 20-83, data.rs 107-121, 194-228, 478-497, 819-836).
   Simplifications: rows and positions are natural numbers (no 64-bit limits); bytes are numbers below 256; a
   buffer is the list of its bytes and a request for a range of it gives those bytes (file positions, alignment,
   zero-copy and compression are left out; values have at least one byte); an array has already been sliced. *)
From Coq Require Import List Arith NArith Bool Lia.
From Verif Require Import Lib PageModel.
Import ListNotations.
Local Open Scope nat_scope.

(* ---- arrays and what they mean ---- *)
(* the types: values of w bytes, booleans, lists of d items *)
Inductive fty := TFixed (w : nat) | TBool | TFsl (t : fty) (d : nat).
(* Arrow arrays: values, children and the validity bitmap if there is one *)
Inductive farr :=
| AFixed (vals : list (list N)) (valid : option (list bool))
| ABool (vals : list bool) (valid : option (list bool))
| AFsl (n : nat) (child : farr) (valid : option (list bool)).
Definition a_len (a : farr) : nat := match a with AFixed v _ => length v | ABool v _ => length v | AFsl n _ _ => n end.
Definition a_valid (a : farr) : option (list bool) := match a with AFixed _ v => v | ABool _ v => v | AFsl _ _ v => v end.
Fixpoint f_wf (t : fty) (a : farr) : Prop :=
  match t, a with
  | TFixed w, AFixed vals v => Forall (fun x => length x = w) vals /\ match v with Some b => length b = length vals | None => True end
  | TBool, ABool vals v => match v with Some b => length b = length vals | None => True end
  | TFsl t' d, AFsl n c v => f_wf t' c /\ a_len c = n * d /\ match v with Some b => length b = n | None => True end
  | _, _ => False
  end.
(* the values of the rows *)
Inductive lval := VNull | VBytes (b : list N) | VBool (b : bool) | VList (l : list lval).
Definition mask_with (v : option (list bool)) (l : list lval) : list lval :=
  match v with None => l | Some b => map (fun p : bool * lval => if fst p then snd p else VNull) (combine b l) end.
(* n groups of d *)
Definition groups {A} (d n : nat) (l : list A) : list (list A) := map (fun i => firstn d (skipn (i * d) l)) (seq 0 n).
Fixpoint logical (t : fty) (a : farr) : list lval :=
  match t, a with
  | TFixed _, AFixed vals v => mask_with v (map VBytes vals)
  | TBool, ABool vals v => mask_with v (map VBool vals)
  | TFsl t' d, AFsl n c v => mask_with v (map VList (groups d n (logical t' c)))
  | _, _ => []
  end.

(* ---- bitmaps: least significant bit first ---- *)
Definition byte_of (l : list bool) : N := fold_right (fun (b : bool) acc => ((if b then 1 else 0) + 2 * acc)%N) 0%N l.
Definition bytes_for (n : nat) : nat := (n + 7) / 8.
Definition pack_bits (l : list bool) : list N := map (fun k => byte_of (firstn 8 (skipn (8 * k) l))) (seq 0 (bytes_for (length l))).
Definition bit_at (b : list N) (i : nat) : bool := N.testbit (nth (i / 8) b 0%N) (N.of_nat (i mod 8)).

(* ---- blocks ---- *)
(* DataBlock of data.rs 800-812: all null, nullable, fixed width, fixed size list *)
Inductive block :=
| BAllNull (n : nat)
| BNullable (b : block) (nulls : list N)
| BFixed (bits : nat) (data : list N) (n : nat)
| BFsl (child : block) (d : nat).
(* DataBlock::num_values 922-937, FixedSizeListBlock::num_values 413-415 (the callers check the dimension) *)
Fixpoint num_values (b : block) : nat :=
  match b with BAllNull n => n | BNullable b' _ => num_values b' | BFixed _ _ n => n | BFsl c d => num_values c / d end.
(* extract_nulls 1398-1428 *)
Inductive nullability := NNone | NAll | NSome (bits : list bool).
Definition valid_bits (a : farr) : list bool := match a_valid a with Some b => b | None => repeat true (a_len a) end.
Definition extract_nulls (arrays : list farr) (n : nat) : nullability :=
  if forallb (fun a => match a_valid a with None => true | Some _ => false end) arrays then NNone
  else let bits := flat_map valid_bits arrays in
       if length (filter negb bits) =? n then NAll else NSome bits.
(* encode_flat_data 1203-1211, encode_bitmap_data 1213-1230 *)
Definition flat_data (arrays : list farr) : list N := flat_map (fun a => match a with AFixed vals _ => concat vals | _ => [] end) arrays.
Definition bool_data (arrays : list farr) : list bool := flat_map (fun a => match a with ABool vals _ => vals | _ => [] end) arrays.
Definition children (arrays : list farr) : list farr := flat_map (fun a => match a with AFsl _ c _ => [c] | _ => [] end) arrays.
(* DataBlock::from_arrays 1431-1545 *)
Fixpoint from_arrays (t : fty) (arrays : list farr) (n : nat) : block :=
  if match arrays with [] => true | _ => n =? 0 end then BAllNull 0
  else match extract_nulls arrays n with
       | NAll => BAllNull n
       | nulls =>
           let data := match t with
                       | TFixed w => BFixed (8 * w) (flat_data arrays) n
                       | TBool => BFixed 1 (pack_bits (bool_data arrays)) n
                       | TFsl t' d => BFsl (from_arrays t' (children arrays) (n * d)) d
                       end in
           match nulls with NSome bits => BNullable data (pack_bits bits) | _ => data end
       end.

(* ---- writing ---- *)
(* the descriptions of pages (format.rs 47-103, 239-246), flat buffers by their index *)
Inductive enc := EAllNull | ENoNulls (values : enc) | ESome (validity values : enc) | EFlat (bits idx : nat) | EFsl (items : enc) (d : nat).
(* choose_array_encoder, encoder.rs 526-531 and 625-660 before version 2.1 *)
Inductive encoder := XValue | XBasic (e : encoder) | XFsl (e : encoder) (d : nat).
Fixpoint choose (t : fty) : encoder := match t with TFsl t' d => XBasic (XFsl (choose t') d) | _ => XBasic XValue end.
(* BasicEncoder::encode, ValueEncoder::encode, FslEncoder::encode: the data, the description and the next buffer
   index; None: a panic or an error *)
Fixpoint encode (x : encoder) (b : block) (i : nat) {struct x} : option (block * enc * nat) :=
  match x with
  | XValue => match b with BFixed bits _ _ => Some (b, EFlat bits i, S i) | _ => None end
  | XBasic x' =>
      match b with
      | BAllNull _ => Some (b, EAllNull, i)
      | BNullable b' nulls => match encode x' b' (S i) with Some (y, e, j) => Some (BNullable y nulls, ESome (EFlat 1 i) e, j) | None => None end
      | _ => match encode x' b i with Some (y, e, j) => Some (y, ENoNulls e, j) | None => None end
      end
  | XFsl x' d => match b with BFsl c _ => match encode x' c i with Some (y, e, j) => Some (BFsl y d, EFsl e d, j) | None => None end | _ => None end
  end.
(* into_buffers, data.rs 123-127, 230-232, 499-501, 838-852 *)
Fixpoint buffers (b : block) : list (list N) :=
  match b with BAllNull _ => [] | BNullable b' nulls => nulls :: buffers b' | BFixed _ data _ => [data] | BFsl c _ => buffers c end.
(* create_encode_task, primitive.rs 3361-3383: the buffers and the description of a page *)
Definition write_page (t : fty) (arrays : list farr) : option (list (list N) * enc) :=
  match encode (choose t) (from_arrays t arrays (sumn (map a_len arrays))) 0 with
  | Some (y, e, _) => Some (buffers y, e)
  | None => None
  end.

(* ---- reading ---- *)
(* decoder_from_array_encoding, get_buffer and get_buffer_decoder, physical.rs 57-100, 165-209 *)
Inductive sched := SAll | SNone (s : sched) | SSome (validity values : sched) | SBitmap (buf : list N) | SValue (bpv : nat) (buf : list N) | SFsl (items : sched) (d : nat).
Fixpoint sched_of (bufs : list (list N)) (e : enc) : option sched :=
  match e with
  | EAllNull => Some SAll
  | ENoNulls e' => omap SNone (sched_of bufs e')
  | ESome v e' => match sched_of bufs v, sched_of bufs e' with Some a, Some b => Some (SSome a b) | _, _ => None end
  | EFlat bits i =>
      match nth_error bufs i with
      | Some buf => if bits =? 1 then Some (SBitmap buf) else if bits mod 8 =? 0 then Some (SValue (bits / 8) buf) else None
      | None => None
      end
  | EFsl e' d => omap (fun s => SFsl s d) (sched_of bufs e')
  end.
(* BitmapData, bitmap.rs 84-88 *)
Record bchunk := { b_data : list N; b_off : nat; b_len : nat }.
Inductive dec := DAll | DNone (d : dec) | DSome (validity values : dec) | DBitmap (chunks : list bchunk) | DValue (bpv : nat) (data : list (list N)) | DFsl (items : dec) (d : nat).
(* schedule_ranges: basic.rs 106-150, bitmap.rs 36-82, value.rs 62-128, fixed_size_list.rs 38-67 *)
Fixpoint schedule_ranges (s : sched) (rs : list range) : dec :=
  match s with
  | SAll => DAll
  | SNone s' => DNone (schedule_ranges s' rs)
  | SSome v s' => DSome (schedule_ranges v rs) (schedule_ranges s' rs)
  | SBitmap buf => DBitmap (map (fun r => {| b_data := slice (fst r / 8) (bytes_for (snd r)) buf; b_off := fst r mod 8; b_len := snd r - fst r |}) rs)
  | SValue w buf => DValue w (map (fun r => slice (fst r * w) (snd r * w) buf) rs)
  | SFsl s' d => DFsl (schedule_ranges s' (map (fun r => (fst r * d, snd r * d)) rs)) d
  end.
(* append_packed_range (arrow-buffer): the bits start..end of the bytes; None: it reads past their end *)
Definition packed_range (start stop : nat) (b : list N) : option (list bool) :=
  if stop <=? 8 * length b then Some (map (bit_at b) (seq start (stop - start))) else None.
(* BitmapDecoder::decode, bitmap.rs 95-124 *)
Fixpoint decode_bits (chunks : list bchunk) (skip rem : nat) : option (list bool) :=
  match chunks with
  | [] => Some []
  | c :: t =>
      if b_len c <=? skip then decode_bits t (skip - b_len c) rem
      else let start := skip + b_off c in
           let take := Nat.min rem (b_len c) in
           match packed_range start (start + take) (b_data c), decode_bits t 0 (rem - take) with
           | Some x, Some y => Some (x ++ y)
           | _, _ => None
           end
  end.
(* ValuePageDecoder::decode_buffers, value.rs 176-218; [dest] is None until the first bytes are kept *)
Fixpoint decode_buffers (bufs : list (list N)) (skip take : nat) (dest : option (list N)) : list N :=
  match bufs with
  | [] => match dest with Some d => d | None => [] end
  | b :: t =>
      if length b <? skip then decode_buffers t (skip - length b) take dest
      else let here := Nat.min (length b - skip) take in
           let sl := slice skip (skip + here) b in
           match dest, take - here with
           | None, 0 => sl
           | None, rest => decode_buffers t 0 rest (Some sl)
           | Some d, rest => decode_buffers t 0 rest (Some (d ++ sl))
           end
  end.
(* decode: basic.rs 152-172, bitmap.rs, value.rs 221-240, fixed_size_list.rs 73-83 *)
Fixpoint decode (d : dec) (skip n : nat) : option block :=
  match d with
  | DAll => Some (BAllNull n)
  | DNone d' => decode d' skip n
  | DSome v d' =>
      match decode v skip n, decode d' skip n with
      | Some (BFixed _ bits _), Some y => Some (BNullable y bits)
      | _, _ => None
      end
  | DBitmap cs => omap (fun bits => BFixed 1 (pack_bits bits) n) (decode_bits cs skip n)
  | DValue w data => Some (BFixed (8 * w) (decode_buffers data (skip * w) (n * w) None) n)
  | DFsl d' dim => omap (fun c => BFsl c dim) (decode d' (skip * dim) (n * dim))
  end.
(* ArrayData::new_null *)
Fixpoint null_arr (t : fty) (n : nat) : farr :=
  match t with
  | TFixed w => AFixed (repeat (repeat 0%N w) n) (Some (repeat false n))
  | TBool => ABool (repeat false n) (Some (repeat false n))
  | TFsl t' d => AFsl n (null_arr t' (n * d)) (Some (repeat false n))
  end.
Definition set_valid (a : farr) (v : list bool) : farr :=
  match a with AFixed x _ => AFixed x (Some v) | ABool x _ => ABool x (Some v) | AFsl n c _ => AFsl n c (Some v) end.
Definition read_bits (b : list N) (n : nat) : option (list bool) := if n <=? 8 * length b then Some (map (bit_at b) (seq 0 n)) else None.
(* into_arrow: data.rs 41-44, 107-121, 194-228, 478-497; None: a buffer that is too small, a division by zero or a
   wrong type (each a panic) *)
Fixpoint into_arrow (t : fty) (b : block) : option farr :=
  match b with
  | BAllNull n => Some (null_arr t n)
  | BNullable b' nulls => match into_arrow t b' with Some a => omap (set_valid a) (read_bits nulls (a_len a)) | None => None end
  | BFixed _ data n =>
      match t with
      | TFixed w => if n * w <=? length data then Some (AFixed (groups w n data) None) else None
      | TBool => omap (fun bits => ABool bits None) (read_bits data n)
      | TFsl _ _ => None
      end
  | BFsl c d' =>
      match t with
      | TFsl t' d => if d' =? 0 then None else omap (fun a => AFsl (num_values c / d') a None) (into_arrow t' c)
      | _ => None
      end
  end.
(* ranges of rows of a page, from which n rows are read after skip rows were *)
Definition read_rows (t : fty) (arrays : list farr) (rs : list range) (skip n : nat) : option (list lval) :=
  obind (write_page t arrays) (fun p => obind (sched_of (fst p) (snd p)) (fun s => obind (decode (schedule_ranges s rs) skip n) (fun b =>
  omap (logical t) (into_arrow t b)))).
(* PrimitiveFieldDecoder::drain, primitive.rs 3013-3038: one batch after another *)
Fixpoint read_batches (t : fty) (arrays : list farr) (rs : list range) (skip : nat) (ns : list nat) : option (list lval) :=
  match ns with
  | [] => Some []
  | n :: more => match read_rows t arrays rs skip n, read_batches t arrays rs (skip + n) more with Some x, Some y => Some (x ++ y) | _, _ => None end
  end.
