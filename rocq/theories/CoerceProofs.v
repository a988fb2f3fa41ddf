(* C71: coercing a literal to the type of a column keeps the meaning of comparisons. *)
From Coq Require Import List ZArith Bool Lia.
From Verif Require Import Lib CoerceModel.
Local Open Scope Z_scope.

(* ---- the claim: a literal denotes an integer or an instant / a time of day in
   nanoseconds; null has no denotation ---- *)
Definition ns (u : unit) : Z := 1000000000 / per_sec u.
Definition day_ns : Z := 86400 * 1000000000.
Definition denot (s : scalar) : option Z :=
  match s with
  | SInt _ v | SFloat _ v => v
  | SStamp u v | STime u v => omap (fun x => x * ns u) v
  | SDate32 v => omap (fun x => x * day_ns) v
  | SDate64 v => omap (fun x => x * 1000000) v
  | SNull => None
  end.
(* the scalar is a value of its type *)
Definition scalar_ok (s : scalar) : Prop :=
  match s with
  | SInt t (Some v) => in_ity t v = true
  | SStamp _ (Some v) | SDate64 (Some v) => in_ity I64 v = true
  | SDate32 (Some v) => in_ity I32 v = true
  | STime u (Some v) => in_ity (time_ity u) v = true
  | _ => True
  end.
Definition type_of (s : scalar) (ty : dtype) : Prop :=
  match s, ty with
  | SInt t _, TInt t' => t = t'
  | SFloat t _, TFloat t' => t = t'
  | SStamp u _, TStamp u' | STime u _, TTime u' => u = u'
  | SDate32 _, TDate32 | SDate64 _, TDate64 => True
  | SNull, _ => True
  | _, _ => False
  end.
(* no precision is lost: the target is at least as fine, or the value fits *)
Definition lossless (s : scalar) (ty : dtype) : Prop :=
  match s, ty with
  | SInt _ (Some v), TFloat t => Z.abs v <= 2 ^ mant t
  | SStamp u (Some v), TStamp u' | STime u (Some v), TTime u' => (ns u' | v * ns u)
  | SDate64 (Some v), TDate32 => (MS_PER_DAY | v)
  | _, _ => True
  end.
(* values whose narrowing to 32 bits does not wrap *)
Definition no_wrap (s : scalar) (ty : dtype) : Prop :=
  match s, ty with
  | SDate64 (Some v), TDate32 => in_ity I32 (Z.quot v MS_PER_DAY) = true
  | STime u (Some v), TTime u' => time_ity u = I64 -> time_ity u' = I32 -> in_ity I32 (Z.quot (v * ns u) (ns u')) = true
  | _, _ => True
  end.

Lemma ieq_eq : forall a b, ieq a b = true <-> a = b.
Proof. intros [] []; cbn; split; congruence. Qed.
Lemma ueq_eq : forall a b, ueq a b = true <-> a = b.
Proof. intros [] []; cbn; split; congruence. Qed.
Lemma as_i32_id : forall v, in_ity I32 v = true -> as_i32 v = v.
Proof. intros v H. unfold in_ity, imin, imax in H. unfold as_i32. rewrite Z.mod_small; lia. Qed.
Lemma as_i32_range : forall v, in_ity I32 (as_i32 v) = true.
Proof. intros v. unfold in_ity, imin, imax, as_i32. pose proof (Z.mod_pos_bound (v + 2 ^ 31) (2 ^ 32) ltac:(lia)). lia. Qed.
Lemma to_float_exact : forall t v, Z.abs v <= 2 ^ mant t -> to_float t v = v.
Proof.
  intros t v H. unfold to_float. destruct (Z.log2 (Z.abs v) + 1 - mant t <=? 0) eqn:E; [reflexivity|]. apply Z.leb_gt in E.
  assert (M : 0 < mant t) by (destruct t; reflexivity).
  destruct (Z.eq_dec (Z.abs v) 0) as [Z0|Z0]; [rewrite Z0 in E; change (Z.log2 0) with 0 in E; lia|].
  pose proof (Z.log2_spec (Z.abs v) ltac:(lia)) as [L _].
  assert (Z.log2 (Z.abs v) <= mant t). { apply Z.log2_le_mono in H. rewrite Z.log2_pow2 in H by lia. exact H. }
  assert (EQ : Z.log2 (Z.abs v) = mant t) by lia. rewrite EQ in *. assert (V : Z.abs v = 2 ^ mant t) by lia.
  replace (mant t + 1 - mant t) with 1 by lia. unfold round_even. assert (Z.abs v mod 2 ^ 1 = 0). { rewrite V. destruct t; reflexivity. }
  assert (v mod 2 ^ 1 = 0). { destruct (Z.abs_eq_or_opp v) as [A|A]; rewrite A in *; [assumption|]. apply Z.mod_opp_l_z in H1; [|lia]. rewrite Z.opp_involutive in H1. exact H1. }
  rewrite H2. change (2 * 0 <? 2 ^ 1) with true. cbv iota. pose proof (Z.div_mod v (2 ^ 1) ltac:(lia)) as DM. lia.
Qed.

Lemma quot_bound : forall v k, 0 < k -> (0 <= v -> 0 <= Z.quot v k <= v) /\ (v <= 0 -> v <= Z.quot v k <= 0).
Proof.
  intros v k K. pose proof (Z.quot_rem v k ltac:(lia)) as Q. split; intros V.
  - pose proof (Z.rem_bound_pos v k V K). nia.
  - pose proof (Z.rem_nonpos v k ltac:(lia) V). pose proof (Z.rem_bound_abs v k ltac:(lia)). nia.
Qed.
(* the coerced literal has the column's type and is a value of it *)
Theorem coerce_typed : forall s ty w, scalar_ok s -> safe_coerce s ty = Coerced w -> type_of w ty /\ scalar_ok w.
Proof.
  intros s ty w O H. destruct s as [t v|t v|u v|v|v|u v|]; destruct ty as [t'|t'|u'| | |u']; cbn [safe_coerce] in H; try discriminate; try (injection H as <-; split; exact Logic.I).
  - destruct (ieq t t') eqn:E; [injection H as <-; apply ieq_eq in E; auto|]. destruct v as [v|]; [|discriminate]. cbn in H. unfold try_int in H.
    destruct (in_ity t' v) eqn:I; [|discriminate]. injection H as <-. cbn. auto.
  - destruct v as [v|]; [|discriminate]. injection H as <-. cbn. auto.
  - destruct (ueq u u') eqn:E; [injection H as <-; apply ueq_eq in E; auto|]. destruct (per_sec u <? per_sec u') eqn:L.
    + destruct v as [v|]; [|discriminate]. cbn [obind omap] in H. unfold i64_mul in H. destruct (in_ity I64 (v * (per_sec u' / per_sec u))) eqn:I; [|discriminate]. injection H as <-. cbn. auto.
    + destruct v as [v|]; [|discriminate]. cbn in H. injection H as <-. split; [reflexivity|]. cbn [scalar_ok] in *. unfold in_ity, imin, imax in *.
      assert (P : 0 < per_sec u / per_sec u') by (destruct u, u'; try discriminate; reflexivity).
      pose proof (quot_bound v _ P). lia.
  - injection H as <-. split; [exact Logic.I|exact O].
  - injection H as <-. split; [exact Logic.I|]. destruct v as [v|]; cbn in *; [|exact Logic.I]. unfold in_ity, imin, imax, MS_PER_DAY in *. lia.
  - injection H as <-. split; [exact Logic.I|]. destruct v as [v|]; cbn in *; [|exact Logic.I]. apply as_i32_range.
  - injection H as <-. split; [exact Logic.I|exact O].
  - destruct (ueq u u') eqn:E; [injection H as <-; apply ueq_eq in E; auto|]. destruct v as [v|]; [|discriminate]. destruct (per_sec u <? per_sec u') eqn:L.
    + destruct (in_ity (time_ity u') (v * (per_sec u' / per_sec u))) eqn:I; [|discriminate]. injection H as <-. cbn. auto.
    + injection H as <-. split; [reflexivity|]. cbn [scalar_ok] in *.
      destruct u, u'; cbn [per_sec time_ity] in *; try discriminate; try apply as_i32_range;
      unfold in_ity, imin, imax in *; match goal with |- context [Z.quot v ?k] => pose proof (quot_bound v k ltac:(reflexivity)) end; lia.
Qed.

(* the claim where it holds: every comparison with the coerced literal means the same *)
Theorem coerce_denot : forall s ty w, scalar_ok s -> lossless s ty -> no_wrap s ty -> safe_coerce s ty = Coerced w -> denot w = denot s.
Proof.
  intros s ty w O LL NW H. destruct s as [t v|t v|u v|v|v|u v|]; destruct ty as [t'|t'|u'| | |u']; cbn [safe_coerce] in H; try discriminate; try (injection H as <-; reflexivity).
  - destruct (ieq t t') eqn:E; [injection H as <-; reflexivity|]. destruct v as [v|]; [|discriminate]. cbn in H. unfold try_int in H.
    destruct (in_ity t' v) eqn:I; [|discriminate]. injection H as <-. reflexivity.
  - destruct v as [v|]; [|discriminate]. injection H as <-. cbn in *. rewrite to_float_exact by exact LL. reflexivity.
  - destruct (ueq u u') eqn:E; [injection H as <-; reflexivity|]. destruct v as [v|]; [|destruct (per_sec u <? per_sec u'); discriminate]. destruct (per_sec u <? per_sec u') eqn:L.
    + cbn [obind omap] in H. unfold i64_mul in H. destruct (in_ity I64 (v * (per_sec u' / per_sec u))) eqn:I; [|discriminate]. injection H as <-. cbn [denot omap]. f_equal.
      destruct u, u'; try discriminate; cbn; lia.
    + injection H as <-. cbn [denot omap lossless] in *. f_equal. destruct LL as [k K].
      destruct u, u'; cbn in E, L; try discriminate; cbn [per_sec ns] in *;
        match goal with |- Z.quot v ?d * _ = _ => let d' := eval compute in d in change d with d'; assert (V : v = k * d') by (cbn in K; lia); rewrite V, Z.quot_mul by lia; cbn; lia end.
  - injection H as <-. destruct v as [v|]; [|reflexivity]. cbn. f_equal. unfold MS_PER_DAY, day_ns. lia.
  - injection H as <-. destruct v as [v|]; [|reflexivity]. cbn [denot omap lossless no_wrap] in *. f_equal. rewrite as_i32_id by exact NW. destruct LL as [k ->]. rewrite Z.quot_mul by (unfold MS_PER_DAY; lia). unfold MS_PER_DAY, day_ns. lia.
  - destruct (ueq u u') eqn:E; [injection H as <-; reflexivity|]. destruct v as [v|]; [|discriminate]. destruct (per_sec u <? per_sec u') eqn:L.
    + destruct (in_ity (time_ity u') (v * (per_sec u' / per_sec u))) eqn:I; [|discriminate]. injection H as <-. cbn [denot omap]. f_equal. destruct u, u'; try discriminate; cbn; lia.
    + injection H as <-. cbn [denot omap lossless no_wrap] in *. f_equal. destruct LL as [k K]. rewrite K in NW.
      destruct u, u'; cbn in E, L; try discriminate; cbn [per_sec time_ity] in *; try (specialize (NW eq_refl eq_refl));
      match goal with |- context [Z.quot v ?d] => let d' := eval compute in d in change d with d'; assert (V : v = k * d') by (cbn in K; lia); rewrite V in *; rewrite Z.quot_mul by lia end;
      try (rewrite Z.quot_mul in NW by (cbn; lia); rewrite as_i32_id by exact NW); cbn; lia.
Qed.
(* an integer literal is refused only when no value of the column equals it *)
Theorem coerce_int_complete : forall t v t', in_ity t v = true ->
  (safe_coerce (SInt t (Some v)) (TInt t') = NoCoercion <-> in_ity t' v = false).
Proof.
  intros t v t' O. cbn [safe_coerce obind]. destruct (ieq t t') eqn:E.
  - apply ieq_eq in E. subst t'. split; intros H; [discriminate|congruence].
  - unfold try_int. destruct (in_ity t' v); cbn; split; congruence.
Qed.
(* comparisons of integer columns *)
Corollary coerce_int_compare : forall t v t' w (cmp : Z -> Z -> bool) x, in_ity t v = true -> safe_coerce (SInt t (Some v)) (TInt t') = Coerced (SInt t' (Some w)) -> cmp x w = cmp x v.
Proof. intros t v t' w cmp x O H. assert (D := coerce_denot (SInt t (Some v)) (TInt t') _ O Logic.I Logic.I H). cbn in D. congruence. Qed.

(* ---- timestamp literals finer than the column: which comparisons survive ---- *)
Theorem stamp_trunc_compare : forall u u' v x, per_sec u' < per_sec u ->
  exists q, safe_coerce (SStamp u (Some v)) (TStamp u') = Coerced (SStamp u' (Some q)) /\
    (0 <= v -> (x * ns u' <= v * ns u <-> x <= q) /\ (v * ns u < x * ns u' <-> q < x)) /\
    (v <= 0 -> (x * ns u' < v * ns u <-> x < q) /\ (v * ns u <= x * ns u' <-> q <= x)).
Proof.
  intros u u' v x L. exists (Z.quot v (per_sec u / per_sec u')). split.
  - cbn [safe_coerce]. destruct (ueq u u') eqn:E; [apply ueq_eq in E; subst; lia|]. replace (per_sec u <? per_sec u') with false by (symmetry; apply Z.ltb_ge; lia). reflexivity.
  - set (q := Z.quot v (per_sec u / per_sec u')). assert (Q : exists d r, ns u' = d * ns u /\ 0 < d /\ 0 < ns u /\ v = d * q + r /\ (0 <= v -> 0 <= r < d) /\ (v <= 0 -> - d < r <= 0)).
    { exists (per_sec u / per_sec u'), (Z.rem v (per_sec u / per_sec u')). assert (P : 0 < per_sec u / per_sec u') by (destruct u, u'; cbn in *; try lia; reflexivity).
      split; [destruct u, u'; cbn in *; try lia; reflexivity|]. split; [exact P|]. split; [destruct u; reflexivity|]. split; [apply Z.quot_rem; lia|]. split; intros V.
      - apply Z.rem_bound_pos; lia.
      - pose proof (Z.rem_nonpos v (per_sec u / per_sec u') ltac:(lia) V). pose proof (Z.rem_bound_abs v (per_sec u / per_sec u') ltac:(lia)). lia. }
    destruct Q as [d [r [E [D [N1 [V [P M]]]]]]]. rewrite E. clear E. clearbody q. subst v. rewrite !Z.mul_assoc, <- !Z.mul_le_mono_pos_r, <- !Z.mul_lt_mono_pos_r by exact N1. split; intros S; [specialize (P S); clear M|specialize (M S); clear P]; clear L S N1; split; split; intros H; nia.
Qed.

(* ---- where the claim fails ---- *)
(* ts >= 1500ms on a column of seconds becomes ts >= 1s *)
Theorem coerce_stamp_refuted : exists s ty w x, scalar_ok s /\ safe_coerce s ty = Coerced w /\ type_of x ty /\ scalar_ok x /\
  exists a b c, denot x = Some a /\ denot s = Some b /\ denot w = Some c /\ ~ b <= a /\ c <= a.
Proof.
  exists (SStamp Milli (Some 1500)), (TStamp Sec), (SStamp Sec (Some 1)), (SStamp Sec (Some 1)).
  split; [reflexivity|]. split; [reflexivity|]. split; [reflexivity|]. split; [reflexivity|]. do 3 eexists. split; [reflexivity|]. split; [reflexivity|]. split; [reflexivity|]. cbn. lia.
Qed.
(* x = 16777217 on a 32-bit float column matches 16777216.0 *)
Theorem coerce_float_refuted : exists s ty w x, scalar_ok s /\ safe_coerce s ty = Coerced w /\ type_of x ty /\ denot x = denot w /\ denot x <> denot s.
Proof. exists (SInt I64 (Some 16777217)), (TFloat F32), (SFloat F32 (Some 16777216)), (SFloat F32 (Some 16777216)). repeat split; try reflexivity. discriminate. Qed.
(* a Date64 beyond the range of Date32 wraps: a far future date becomes day -2147483648 *)
Theorem coerce_date_wrap_refuted : exists v w, scalar_ok (SDate64 (Some v)) /\ (MS_PER_DAY | v) /\ 0 < v /\ safe_coerce (SDate64 (Some v)) TDate32 = Coerced (SDate32 (Some w)) /\ w < 0.
Proof. exists (2147483648 * MS_PER_DAY), (-2147483648). split; [reflexivity|]. split; [exists 2147483648; reflexivity|]. split; [reflexivity|]. split; [reflexivity|lia]. Qed.
(* scaling up a time literal can overflow *)
Theorem coerce_time_overflow_refuted : exists s ty, scalar_ok s /\ safe_coerce s ty = Overflow.
Proof. exists (STime Sec (Some 3000000)), (TTime Milli). split; reflexivity. Qed.
(* times of day do not overflow or wrap *)
Theorem coerce_time_of_day : forall u u' v, 0 <= v < 86400 * per_sec u ->
  exists w, safe_coerce (STime u (Some v)) (TTime u') = Coerced (STime u' (Some w)) /\ 0 <= w < 86400 * per_sec u' /\ w * ns u' <= v * ns u < (w + 1) * ns u'.
Proof.
  intros u u' v H. cbn [safe_coerce]. destruct (ueq u u') eqn:E.
  - apply ueq_eq in E. subst u'. exists v. split; [reflexivity|]. assert (0 < ns u) by (destruct u; reflexivity). nia.
  - destruct (per_sec u <? per_sec u') eqn:L.
    + eexists. split.
      * match goal with |- (if ?b then _ else _) = _ => replace b with true end; [reflexivity|]. symmetry. unfold in_ity. destruct u, u'; try discriminate; cbn in *; lia.
      * destruct u, u'; try discriminate; cbn in *; lia.
    + assert (D : exists d, per_sec u / per_sec u' = d /\ per_sec u = d * per_sec u' /\ ns u' = d * ns u /\ 0 < d) by (destruct u, u'; cbn in *; try discriminate; eexists; split; try reflexivity; cbn; lia).
      destruct D as [d [-> [D1 [D2 D3]]]]. set (q := Z.quot v d). assert (Q : v = d * q + Z.rem v d) by (apply Z.quot_rem; lia). pose proof (Z.rem_bound_pos v d ltac:(lia) D3).
      assert (Q0 : 0 <= q < 86400 * per_sec u') by nia. exists q. split; [|split; [exact Q0|assert (0 < ns u) by (destruct u; reflexivity); nia]].
      assert (B : in_ity I32 q = true \/ time_ity u' = I64). { destruct u'; cbn in *; try (right; reflexivity); left; unfold in_ity; cbn; lia. }
      destruct u, u'; cbn [time_ity] in *; try reflexivity; destruct B as [B|B]; try discriminate; rewrite as_i32_id by exact B; reflexivity.
Qed.
Example coerce_instances :
  safe_coerce (SInt I64 (Some 200)) (TInt U8) = Coerced (SInt U8 (Some 200)) /\ safe_coerce (SInt I64 (Some 300)) (TInt U8) = NoCoercion /\
  safe_coerce (SStamp Sec (Some 5)) (TStamp Nano) = Coerced (SStamp Nano (Some 5000000000)) /\ safe_coerce (SStamp Milli (Some (-1500))) (TStamp Sec) = Coerced (SStamp Sec (Some (-1))) /\
  safe_coerce (SDate64 (Some 172800000)) TDate32 = Coerced (SDate32 (Some 2)) /\ lossless (SDate64 (Some 172800000)) TDate32 /\ no_wrap (SDate64 (Some 172800000)) TDate32 /\
  to_float F32 16777219 = 16777220 /\ to_float F64 9007199254740993 = 9007199254740992.
Proof. repeat split; try reflexivity. exists 2. reflexivity. Qed.
