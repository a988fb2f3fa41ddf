(* Literal coercion: safe_coerce_scalar, rust/lance-datafusion/src/expr.rs:13-420.

   Modelled: integer, float (from integers), timestamp, date and time literals.  Not
   modelled: strings (moved between Utf8 and LargeUtf8 unchanged), lists (arrow's
   cast kernel), float literals, time zones.  A float column value or literal is
   represented by its integer value, which is all an integer literal can become. *)
From Coq Require Import List ZArith Bool.
From Verif Require Import Lib.
Local Open Scope Z_scope.

Inductive ity := I8 | I16 | I32 | I64 | U8 | U16 | U32 | U64.
Definition imin (t : ity) : Z := match t with I8 => - 2 ^ 7 | I16 => - 2 ^ 15 | I32 => - 2 ^ 31 | I64 => - 2 ^ 63 | _ => 0 end.
Definition imax (t : ity) : Z :=
  match t with I8 => 2 ^ 7 - 1 | I16 => 2 ^ 15 - 1 | I32 => 2 ^ 31 - 1 | I64 => 2 ^ 63 - 1 | U8 => 2 ^ 8 - 1 | U16 => 2 ^ 16 - 1 | U32 => 2 ^ 32 - 1 | U64 => 2 ^ 64 - 1 end.
Definition in_ity (t : ity) (v : Z) : bool := (imin t <=? v) && (v <=? imax t).
Inductive unit := Sec | Milli | Micro | Nano.
Definition per_sec (u : unit) : Z := match u with Sec => 1 | Milli => 1000 | Micro => 1000000 | Nano => 1000000000 end.
Inductive fty := F32 | F64.
(* DataType, ScalarValue; Time32 holds seconds or milliseconds in an i32, Time64
   microseconds or nanoseconds in an i64: one constructor for both *)
Inductive dtype := TInt (t : ity) | TFloat (t : fty) | TStamp (u : unit) | TDate32 | TDate64 | TTime (u : unit).
Inductive scalar :=
| SInt (t : ity) (v : option Z)
| SFloat (t : fty) (v : option Z)
| SStamp (u : unit) (v : option Z)
| SDate32 (v : option Z)
| SDate64 (v : option Z)
| STime (u : unit) (v : option Z)
| SNull.
Definition MS_PER_DAY : Z := 86400000.                                     (* 13 *)

(* T::try_from *)
Definition try_int (t : ity) (v : Z) : option Z := if in_ity t v then Some v else None.
(* `as i32` *)
Definition as_i32 (v : Z) : Z := (v + 2 ^ 31) mod 2 ^ 32 - 2 ^ 31.
(* v as f32 / f64 for an integer v: round to nearest, ties to even; 24 or 53 bits *)
Definition mant (t : fty) : Z := match t with F32 => 24 | F64 => 53 end.
Definition round_even (v m : Z) : Z :=
  let q := v / m in let r := v mod m in
  (if 2 * r <? m then q else if m <? 2 * r then q + 1 else if Z.even q then q else q + 1) * m.
Definition to_float (t : fty) (v : Z) : Z :=
  let e := Z.log2 (Z.abs v) + 1 - mant t in if e <=? 0 then v else round_even v (2 ^ e).

(* outcome: a scalar, no coercion (None), or a panic *)
Inductive outcome := Coerced (s : scalar) | NoCoercion | Overflow.
Definition ok_or (o : option scalar) : outcome := match o with Some s => Coerced s | None => NoCoercion end.
Definition i64_mul (v k : Z) : option Z := if in_ity I64 (v * k) then Some (v * k) else None.   (* checked_mul *)
Definition ueq (a b : unit) : bool := match a, b with Sec, Sec | Milli, Milli | Micro, Micro | Nano, Nano => true | _, _ => false end.
Definition ieq (a b : ity) : bool :=
  match a, b with I8, I8 | I16, I16 | I32, I32 | I64, I64 | U8, U8 | U16, U16 | U32, U32 | U64, U64 => true | _, _ => false end.
Definition time_ity (u : unit) : ity := match u with Sec | Milli => I32 | _ => I64 end.

Definition safe_coerce (s : scalar) (ty : dtype) : outcome :=
  match s, ty with
  (* 21-206: the same type keeps the scalar (null or not); another type maps a value *)
  | SInt t v, TInt t' => if ieq t t' then Coerced s else ok_or (obind v (fun x => omap (fun y => SInt t' (Some y)) (try_int t' x)))
  | SInt _ v, TFloat t' => ok_or (omap (fun x => SFloat t' (Some (to_float t' x))) v)
  | SNull, _ => Coerced SNull                                              (* 232 *)
  (* 249-310 *)
  | SStamp u v, TStamp u' =>
      if ueq u u' then Coerced s
      else if per_sec u <? per_sec u'
      then ok_or (omap (fun y => SStamp u' (Some y)) (obind v (fun x => i64_mul x (per_sec u' / per_sec u))))
      else ok_or (omap (fun x => SStamp u' (Some (Z.quot x (per_sec u / per_sec u')))) v)
  (* 311-323 *)
  | SDate32 v, TDate32 => Coerced s
  | SDate32 v, TDate64 => Coerced (SDate64 (omap (fun x => x * MS_PER_DAY) v))
  | SDate64 v, TDate32 => Coerced (SDate32 (omap (fun x => as_i32 (Z.quot x MS_PER_DAY)) v))
  | SDate64 v, TDate64 => Coerced s
  (* 324-383: multiplication in the target type (Time32Second to Time32Millisecond in
     i32, the others in i64), division then `as i32` where the target is a Time32 *)
  | STime u v, TTime u' =>
      if ueq u u' then Coerced s
      else match v with
           | None => NoCoercion
           | Some x =>
               if per_sec u <? per_sec u'
               then let y := x * (per_sec u' / per_sec u) in if in_ity (time_ity u') y then Coerced (STime u' (Some y)) else Overflow
               else let y := Z.quot x (per_sec u / per_sec u') in
                    Coerced (STime u' (Some (match time_ity u', time_ity u with I32, I64 => as_i32 y | _, _ => y end)))
           end
  | _, _ => NoCoercion
  end.
