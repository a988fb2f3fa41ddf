(* Coercion of literals to column types (C71). *)
From Coq Require Import List Arith NArith ZArith Bool Permutation Sorted.
From Verif Require Import Lib CoerceModel CoerceProofs.
Import ListNotations.
Local Open Scope Z_scope.

(* a coerced literal is a value of the column's type *)
Theorem C71_coerced_literal_typed : forall s ty w, scalar_ok s -> safe_coerce s ty = Coerced w -> type_of w ty /\ scalar_ok w.
Proof. exact @coerce_typed. Qed.
Print Assumptions C71_coerced_literal_typed.

(* the claim for coercions that lose no precision and do not wrap *)
Theorem C71_coercion_exact_partial : forall s ty w, scalar_ok s -> lossless s ty -> no_wrap s ty -> safe_coerce s ty = Coerced w -> denot w = denot s.
Proof. exact @coerce_denot. Qed.
Print Assumptions C71_coercion_exact_partial.

(* an integer literal is refused exactly when no value of the column's type equals it *)
Theorem C71_int_refused_iff : forall t v t', in_ity t v = true ->
  (safe_coerce (SInt t (Some v)) (TInt t') = NoCoercion <-> in_ity t' v = false).
Proof. exact @coerce_int_complete. Qed.
Print Assumptions C71_int_refused_iff.

Theorem C71_int_compare : forall t v t' w (cmp : Z -> Z -> bool) x, in_ity t v = true -> safe_coerce (SInt t (Some v)) (TInt t') = Coerced (SInt t' (Some w)) -> cmp x w = cmp x v.
Proof. exact @coerce_int_compare. Qed.
Print Assumptions C71_int_compare.

(* a truncated timestamp: <= and > keep their meaning from the epoch on, < and >= before it *)
Theorem C71_truncated_stamp_compare : forall u u' v x, per_sec u' < per_sec u ->
  exists q, safe_coerce (SStamp u (Some v)) (TStamp u') = Coerced (SStamp u' (Some q)) /\
    (0 <= v -> (x * ns u' <= v * ns u <-> x <= q) /\ (v * ns u < x * ns u' <-> q < x)) /\
    (v <= 0 -> (x * ns u' < v * ns u <-> x < q) /\ (v * ns u <= x * ns u' <-> q <= x)).
Proof. exact @stamp_trunc_compare. Qed.
Print Assumptions C71_truncated_stamp_compare.

(* times of day neither overflow nor wrap *)
Theorem C71_time_of_day : forall u u' v, 0 <= v < 86400 * per_sec u ->
  exists w, safe_coerce (STime u (Some v)) (TTime u') = Coerced (STime u' (Some w)) /\ 0 <= w < 86400 * per_sec u' /\ w * ns u' <= v * ns u < (w + 1) * ns u'.
Proof. exact @coerce_time_of_day. Qed.
Print Assumptions C71_time_of_day.

Theorem C71_stamp_refuted : exists s ty w x, scalar_ok s /\ safe_coerce s ty = Coerced w /\ type_of x ty /\ scalar_ok x /\
  exists a b c, denot x = Some a /\ denot s = Some b /\ denot w = Some c /\ ~ b <= a /\ c <= a.
Proof. exact @coerce_stamp_refuted. Qed.
Print Assumptions C71_stamp_refuted.

Theorem C71_float_refuted : exists s ty w x, scalar_ok s /\ safe_coerce s ty = Coerced w /\ type_of x ty /\ denot x = denot w /\ denot x <> denot s.
Proof. exact @coerce_float_refuted. Qed.
Print Assumptions C71_float_refuted.

Theorem C71_date_wrap_refuted : exists v w, scalar_ok (SDate64 (Some v)) /\ (MS_PER_DAY | v) /\ 0 < v /\ safe_coerce (SDate64 (Some v)) TDate32 = Coerced (SDate32 (Some w)) /\ w < 0.
Proof. exact @coerce_date_wrap_refuted. Qed.
Print Assumptions C71_date_wrap_refuted.

Theorem C71_time_overflow_refuted : exists s ty, scalar_ok s /\ safe_coerce s ty = Overflow.
Proof. exact @coerce_time_overflow_refuted. Qed.
Print Assumptions C71_time_overflow_refuted.
