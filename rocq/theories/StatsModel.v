(* Page statistics of legacy (v1) data files:
   rust/lance-file/src/writer/statistics.rs and the calls in rust/lance-file/src/writer.rs. *)
From Coq Require Import List Arith NArith ZArith Bool Lia.
From Verif Require Import Lib.
Import ListNotations.
Local Open Scope nat_scope.

(* An IEEE 754 number as sign bit and remaining bits: [fmag] below the bits of infinity is a finite number, equal to
   them an infinity, above them a NaN (f32 and f64 differ only in the bits of infinity). *)
Record float := { fneg : bool; fmag : N }.
Definition f_nan (inf : N) (f : float) : bool := (inf <? fmag f)%N.
Definition f_signed (f : float) : Z := if fneg f then (- Z.of_N (fmag f))%Z else Z.of_N (fmag f).
(* PartialOrd for f32 / f64 *)
Definition f_partial_cmp (inf : N) (a b : float) : option comparison :=
  if f_nan inf a || f_nan inf b then None else Some (Z.compare (f_signed a) (f_signed b)).
(* f32::total_cmp / f64::total_cmp: the order of the comparison kernels and of ScalarValue *)
Definition f_key (f : float) : Z := if fneg f then (- Z.of_N (fmag f) - 1)%Z else Z.of_N (fmag f).
Definition f_eqb (inf : N) (a b : float) : bool := match f_partial_cmp inf a b with Some Eq => true | _ => false end.

(* Ord for [u8] and str: bytes in order, a prefix is smaller *)
Fixpoint bcmp (a b : list N) : comparison :=
  match a, b with
  | [], [] => Eq
  | [], _ :: _ => Lt
  | _ :: _, [] => Gt
  | x :: a', y :: b' => match N.compare x y with Eq => bcmp a' b' | c => c end
  end.

(* The column types with statistics (statistics.rs:589-613): integers, dates and decimals are integers between two
   bounds; Utf8 and LargeUtf8, Binary and LargeBinary differ only in the width of their offsets. *)
Inductive dtype := TInt (lo hi : Z) | TBool | TFloat (inf : N) | TUtf8 | TBinary.
Inductive value := VInt (z : Z) | VBool (b : bool) | VFloat (f : float) | VBytes (l : list N).

(* statistics.rs:37-45; a missing bound is a null ScalarValue *)
Record stat := { st_nulls : N; st_min : option value; st_max : option value }.

Definition count_nulls {A} (l : list (option A)) : N := N.of_nat (length (filter (fun o => match o with None => true | _ => false end) l)).

(* statistics.rs:47-82: one array, in order; [mn, mx] is the running pair *)
Definition int_step (s : Z * Z) (v : option Z) : Z * Z :=
  match v with
  | None => s
  | Some z => let '(mn, mx) := s in
      let mx' := match Z.compare z mx with Gt => z | _ => mx end in
      let mn' := match Z.compare z mn with Lt => z | _ => mn end in (mn', mx')
  end.
Definition int_array (s : Z * Z * N * bool) (a : list (option Z)) : Z * Z * N * bool :=
  let '(mn, mx, nc, allnull) := s in
  let nc := (nc + count_nulls a)%N in
  if (count_nulls a =? N.of_nat (length a))%N then (mn, mx, nc, allnull)
  else let '(mn, mx) := fold_left int_step a (mn, mx) in (mn, mx, nc, false).
Definition int_statistics (lo hi : Z) (arrays : list (list (option Z))) : Z * Z * N :=
  let '(mn, mx, nc, allnull) := fold_left int_array arrays (hi, lo, 0%N, true) in
  if allnull : bool then (lo, hi, nc) else (mn, mx, nc).
(* statistics.rs:84-99, 163-173 (Decimal128 keeps precision and scale beside the number) *)
Definition get_statistics lo hi arrays : stat :=
  let '(mn, mx, nc) := int_statistics lo hi arrays in
  {| st_nulls := nc; st_min := Some (VInt mn); st_max := Some (VInt mx) |}.

(* statistics.rs:101-136 *)
Definition f_inf (inf : N) : float := {| fneg := false; fmag := inf |}.
Definition f_ninf (inf : N) : float := {| fneg := true; fmag := inf |}.
Definition float_step (inf : N) (s : float * float) (v : option float) : float * float :=
  match v with
  | None => s
  | Some f => let '(mn, mx) := s in
      let mx' := match f_partial_cmp inf f mx with Some Gt => f | _ => mx end in
      let mn' := match f_partial_cmp inf f mn with Some Lt => f | _ => mn end in (mn', mx')
  end.
Definition float_array (inf : N) (s : float * float * N) (a : list (option float)) : float * float * N :=
  let '(mn, mx, nc) := s in
  let nc := (nc + count_nulls a)%N in
  if (count_nulls a =? N.of_nat (length a))%N then (mn, mx, nc)
  else let '(mn, mx) := fold_left (float_step inf) a (mn, mx) in (mn, mx, nc).
Definition float_statistics (inf : N) (arrays : list (list (option float))) : float * float * N :=
  let '(mn, mx, nc) := fold_left (float_array inf) arrays (f_inf inf, f_ninf inf, 0%N) in
  if f_eqb inf mn (f_inf inf) && f_eqb inf mx (f_ninf inf) then (f_ninf inf, f_inf inf, nc) else (mn, mx, nc).
(* statistics.rs:138-161 *)
Definition f_zero : float := {| fneg := false; fmag := 0 |}.
Definition f_nzero : float := {| fneg := true; fmag := 0 |}.
Definition get_float_statistics inf arrays : stat :=
  let '(mn, mx, nc) := float_statistics inf arrays in
  let mn := if f_eqb inf mn f_zero then f_nzero else mn in
  let mx := if f_eqb inf mx f_nzero then f_zero else mx in
  {| st_nulls := nc; st_min := Some (VFloat mn); st_max := Some (VFloat mx) |}.

(* statistics.rs:34 *)
Definition prefix_length : nat := 64.

(* str::is_char_boundary: not before a continuation byte *)
Definition is_cont (b : N) : bool := (128 <=? b)%N && (b <? 192)%N.
Definition boundary (s : list N) (p : nat) : bool := match nth_error s p with Some b => negb (is_cont b) | None => true end.
(* statistics.rs:177-191: the end of the last character that ends at or before [len].  The code walks the characters
   from the back; this is the same walk over the bytes where characters end. *)
Fixpoint char_end (s : list N) (p : nat) : option nat :=
  match p with 0 => None | S q => if boundary s p then Some p else char_end s q end.
Definition truncate_utf8 (s : list N) (len : nat) : option (list N) :=
  if length s <? len then None else match char_end s len with Some p => Some (firstn p s) | None => None end.

(* str::from_utf8(..).is_ok(): the table of well-formed UTF-8 byte sequences *)
Definition byte_in (lo hi b : N) : bool := (lo <=? b)%N && (b <=? hi)%N.
Fixpoint valid_utf8 (s : list N) : bool :=
  match s with
  | [] => true
  | a :: t =>
      if (a <=? 127)%N then valid_utf8 t
      else match t with
      | [] => false
      | b :: t2 =>
          if byte_in 194 223 a then is_cont b && valid_utf8 t2
          else match t2 with
          | [] => false
          | c :: t3 =>
              let b3 := if (a =? 224)%N then byte_in 160 191 b else if (a =? 237)%N then byte_in 128 159 b else is_cont b in
              if byte_in 224 239 a then b3 && is_cont c && valid_utf8 t3
              else match t3 with
              | [] => false
              | d :: t4 =>
                  let b4 := if (a =? 240)%N then byte_in 144 191 b else if (a =? 244)%N then byte_in 128 143 b else is_cont b in
                  byte_in 240 244 a && b4 && is_cont c && is_cont d && valid_utf8 t4
              end
          end
      end
  end.

Definition set_byte (s : list N) (i : nat) (b : N) : list N := firstn i s ++ [b] ++ skipn (S i) s.
(* statistics.rs:195-214: the inner loop tries the byte values after [from] up to 255 *)
Fixpoint first_valid (s : list N) (i : nat) (bytes : list N) : option (list N) :=
  match bytes with
  | [] => None
  | b :: t => if valid_utf8 (set_byte s i b) then Some (set_byte s i b) else first_valid s i t
  end.
Definition bytes_after (b : N) : list N := nrange (b + 1) (N.to_nat (255 - b)).
Fixpoint increment_utf8_from (s : list N) (n : nat) : option (list N) :=
  match n with
  | 0 => None
  | S i => match first_valid s i (bytes_after (nth i s 0%N)) with
           | Some r => Some r
           | None => increment_utf8_from s i
           end
  end.
Definition increment_utf8 (s : list N) : option (list N) := increment_utf8_from s (length s).

(* statistics.rs:217-223 *)
Definition truncate_binary (s : list N) (len : nat) : option (list N) :=
  if length s <? len then None else Some (firstn len s).
(* statistics.rs:228-239; the bytes from the back, [None] when all of them overflow *)
Fixpoint increment_rev (r : list N) : option (list N) :=
  match r with
  | [] => None
  | b :: t => if (b =? 255)%N then match increment_rev t with Some t' => Some (0%N :: t') | None => None end
              else Some ((b + 1)%N :: t)
  end.
Definition increment (s : list N) : option (list N) := match increment_rev (rev s) with Some r => Some (rev r) | None => None end.

(* statistics.rs:256-283 and 326-355: minimum and maximum of the (cut) values, and whether one was cut;
   [None]: the unwrap of the truncation fails *)
Definition bstate := (option (list N) * option (list N) * bool)%type.
Definition bytes_step (truncate : list N -> nat -> option (list N)) (s : option bstate) (v : option (list N)) : option bstate :=
  match s, v with
  | None, _ => None
  | Some s, None => Some s
  | Some (mn, mx, cut), Some w =>
      match (if prefix_length <? length w then match truncate w prefix_length with Some t => Some (t, true) | None => None end
             else Some (w, cut)) with
      | None => None
      | Some (w, cut) =>
          let mn' := match mn with Some m => match bcmp w m with Lt => Some w | _ => mn end | None => Some w end in
          let mx' := match mx with Some m => match bcmp w m with Gt => Some w | _ => mx end | None => Some w end in
          Some (mn', mx', cut)
      end
  end.
Definition bytes_array truncate (s : option bstate * N) (a : list (option (list N))) : option bstate * N :=
  let '(st, nc) := s in
  let nc := (nc + count_nulls a)%N in
  if (count_nulls a =? N.of_nat (length a))%N then (st, nc) else (fold_left (bytes_step truncate) a st, nc).
(* statistics.rs:241-314, 316-387: the two functions differ in how they cut and increment *)
Definition get_bytes_statistics (truncate : list N -> nat -> option (list N)) (incr : list N -> option (list N))
    (arrays : list (list (option (list N)))) : option stat :=
  match fold_left (bytes_array truncate) arrays (Some (None, None, false), 0%N) with
  | (None, _) => None
  | (Some (mn, mx, cut), nc) =>
      let mx := match mx with Some m => if cut : bool then incr m else Some m | None => None end in
      Some {| st_nulls := nc; st_min := option_map VBytes mn; st_max := option_map VBytes mx |}
  end.
Definition get_string_statistics := get_bytes_statistics truncate_utf8 increment_utf8.
Definition get_binary_statistics := get_bytes_statistics truncate_binary increment.

(* statistics.rs:453-485: the loop ends with the first array after which both values have been seen *)
Definition bool_seen (s : bool * bool) (v : option bool) : bool * bool :=
  match v with Some true => (true, snd s) | Some false => (fst s, true) | None => s end.
Fixpoint bool_arrays (arrays : list (list (option bool))) (s : bool * bool) (nc : N) : bool * bool * N :=
  match arrays with
  | [] => (s, nc)
  | a :: t =>
      let nc := (nc + count_nulls a)%N in
      if (count_nulls a =? N.of_nat (length a))%N then bool_arrays t s nc
      else let s := fold_left bool_seen a s in
           if fst s && snd s then (s, nc) else bool_arrays t s nc
  end.
Definition get_boolean_statistics (arrays : list (list (option bool))) : stat :=
  let '(t, f, nc) := bool_arrays arrays (false, false) 0%N in
  {| st_nulls := nc; st_min := Some (VBool (t && negb f)); st_max := Some (VBool (t || negb f)) |}.

(* the values of an array of the given type; [None] if one has another type (the downcasts) *)
Definition as_ints (a : list (option value)) : option (list (option Z)) :=
  sequence_opt (map (fun o => match o with None => Some None | Some (VInt z) => Some (Some z) | _ => None end) a).
Definition as_bools (a : list (option value)) : option (list (option bool)) :=
  sequence_opt (map (fun o => match o with None => Some None | Some (VBool z) => Some (Some z) | _ => None end) a).
Definition as_floats (a : list (option value)) : option (list (option float)) :=
  sequence_opt (map (fun o => match o with None => Some None | Some (VFloat z) => Some (Some z) | _ => None end) a).
Definition as_bytes (a : list (option value)) : option (list (option (list N))) :=
  sequence_opt (map (fun o => match o with None => Some None | Some (VBytes z) => Some (Some z) | _ => None end) a).

(* statistics.rs:553-587: [None] is a panic *)
Definition collect_statistics (t : dtype) (arrays : list (list (option value))) : option stat :=
  match arrays with
  | [] => None
  | _ => match t with
         | TInt lo hi => option_map (get_statistics lo hi) (sequence_opt (map as_ints arrays))
         | TBool => option_map get_boolean_statistics (sequence_opt (map as_bools arrays))
         | TFloat inf => option_map (get_float_statistics inf) (sequence_opt (map as_floats arrays))
         | TUtf8 => match sequence_opt (map as_bytes arrays) with Some l => get_string_statistics l | None => None end
         | TBinary => match sequence_opt (map as_bytes arrays) with Some l => get_binary_statistics l | None => None end
         end
  end.
