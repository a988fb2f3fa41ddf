(* Page statistics bound the values of a page. *)
From Coq Require Import List Arith NArith ZArith Bool Lia.
From Verif Require Import Lib StatsModel.
Import ListNotations.
Local Open Scope nat_scope.

(* ---- specification ---- *)
(* the order in which comparisons are evaluated; values of different types are not comparable *)
Definition vle (a b : value) : Prop :=
  match a, b with
  | VInt x, VInt y => (x <= y)%Z
  | VBool x, VBool y => implb x y = true
  | VFloat x, VFloat y => (f_key x <= f_key y)%Z
  | VBytes x, VBytes y => bcmp x y <> Gt
  | _, _ => False
  end.

(* the values of a column of the given type *)
Definition typed (t : dtype) (v : value) : Prop :=
  match t, v with
  | TInt lo hi, VInt z => (lo <= z <= hi)%Z
  | TBool, VBool _ => True
  | TFloat _, VFloat _ => True
  | TUtf8, VBytes s => valid_utf8 s = true
  | TBinary, VBytes s => Forall (fun b => (b <= 255)%N) s
  | _, _ => False
  end.
Definition typed_array t (a : list (option value)) : Prop := forall v, In (Some v) a -> typed t v.

Definition bounds (st : stat) (vals : list (option value)) : Prop :=
  forall v, In (Some v) vals ->
    (forall m, st_min st = Some m -> vle m v) /\ (forall m, st_max st = Some m -> vle v m).
Definition covers (st : stat) (vals : list (option value)) : Prop :=
  st_nulls st = count_nulls vals /\ bounds st vals.

(* ---- counting nulls, skipped arrays ---- *)
Lemma count_nulls_app : forall {A} (a b : list (option A)), count_nulls (a ++ b) = (count_nulls a + count_nulls b)%N.
Proof. intros. unfold count_nulls. rewrite filter_app, app_length. lia. Qed.
Lemma count_nulls_cons : forall {A} (x : option A) a, count_nulls (x :: a) = ((match x with None => 1 | _ => 0 end) + count_nulls a)%N.
Proof. intros. unfold count_nulls. destruct x; cbn [filter length]; lia. Qed.
Lemma count_nulls_le : forall {A} (a : list (option A)), (count_nulls a <= N.of_nat (length a))%N.
Proof. induction a as [|x a IH]; [cbn; lia|]. rewrite count_nulls_cons. cbn [length]. destruct x; lia. Qed.
Lemma count_nulls_all : forall {A} (a : list (option A)), count_nulls a = N.of_nat (length a) -> forall x, In x a -> x = None.
Proof.
  induction a as [|x a IH]; intros H y Hy; [contradiction|].
  rewrite count_nulls_cons in H. cbn [length] in H. pose proof (count_nulls_le a).
  destruct x; [lia|]. destruct Hy as [<-|Hy]; auto. apply IH; auto. lia.
Qed.
Lemma count_nulls_some : forall {A} (a : list (option A)), count_nulls a <> N.of_nat (length a) -> exists v, In (Some v) a.
Proof.
  induction a as [|x a IH]; intros H; [cbn in H; lia|].
  rewrite count_nulls_cons in H. cbn [length] in H. destruct x as [v|]; [exists v; left; auto|].
  destruct IH as [v Hv]; [lia|]. exists v. right; auto.
Qed.
Lemma count_nulls_map : forall {A B} (f : A -> B) (a : list (option A)), count_nulls (map (option_map f) a) = count_nulls a.
Proof. induction a as [|x a IH]; auto. cbn [map]. rewrite !count_nulls_cons, IH. destruct x; reflexivity. Qed.

(* folding a step that ignores nulls *)
Lemma fold_nulls : forall {A St} (f : St -> option A -> St), (forall s, f s None = s) ->
  forall a s, (forall x, In x a -> x = None) -> fold_left f a s = s.
Proof.
  intros A St f Hf. induction a as [|x a IH]; intros s H; auto. cbn [fold_left].
  rewrite (H x (or_introl eq_refl)), Hf. apply IH. intros y Hy. apply H. right; auto.
Qed.

(* ---- integers ---- *)
Lemma int_arrays_fold : forall arrays mn mx nc an,
  fold_left int_array arrays (mn, mx, nc, an) =
  (fold_left int_step (concat arrays) (mn, mx), (nc + count_nulls (concat arrays))%N,
   an && forallb (fun o => match o with None => true | _ => false end) (concat arrays)).
Proof.
  induction arrays as [|a arrays IH]; intros mn mx nc an; cbn [fold_left concat forallb].
  - unfold count_nulls. cbn. rewrite andb_true_r, N.add_0_r. reflexivity.
  - rewrite fold_left_app, forallb_app, count_nulls_app. unfold int_array at 2.
    destruct (count_nulls a =? N.of_nat (length a))%N eqn:E.
    + apply N.eqb_eq in E. pose proof (count_nulls_all a E) as H. rewrite IH.
      rewrite (fold_nulls int_step (fun s => eq_refl) a) by auto.
      replace (forallb (fun o => match o with None => true | _ => false end) a) with true
        by (symmetry; apply forallb_forall; intros x Hx; rewrite (H x Hx); auto).
      rewrite N.add_assoc. reflexivity.
    + apply N.eqb_neq in E. destruct (count_nulls_some a E) as [v Hv].
      destruct (fold_left int_step a (mn, mx)) as [mn' mx'] eqn:Ef. rewrite IH.
      replace (forallb (fun o => match o with None => true | _ => false end) a) with false.
      * rewrite andb_false_r, N.add_assoc. reflexivity.
      * symmetry. destruct (forallb _ a) eqn:Ea; auto. rewrite forallb_forall in Ea. specialize (Ea _ Hv). discriminate.
Qed.

Lemma int_step_minmax : forall mn mx z, int_step (mn, mx) (Some z) = (Z.min z mn, Z.max z mx).
Proof. intros. cbn [int_step]. destruct (Z.compare_spec z mx), (Z.compare_spec z mn); f_equal; lia. Qed.
Lemma int_step_fold : forall l mn mx mn' mx', fold_left int_step l (mn, mx) = (mn', mx') ->
  (mn' <= mn)%Z /\ (mx <= mx')%Z /\ (forall z, In (Some z) l -> (mn' <= z <= mx')%Z) /\
  (mn' = mn \/ In (Some mn') l) /\ (mx' = mx \/ In (Some mx') l).
Proof.
  induction l as [|o l IH]; intros mn mx mn' mx' H; cbn [fold_left] in H.
  - injection H as <- <-. split; [lia|]. split; [lia|]. split; [intros; contradiction|]. auto.
  - destruct o as [z|].
    + rewrite int_step_minmax in H. apply IH in H as (H1 & H2 & H3 & H4 & H5).
      split; [lia|]. split; [lia|]. split; [intros w [[= ->]|Hw]; [lia|]; apply H3; auto|]. split.
      * destruct H4 as [H4|H4]; [|right; right; auto].
        destruct (Z.min_spec z mn) as [[Hz E]|[Hz E]]; rewrite E in H4; subst mn'; [right; left; auto|left; auto].
      * destruct H5 as [H5|H5]; [|right; right; auto].
        destruct (Z.max_spec z mx) as [[Hz E]|[Hz E]]; rewrite E in H5; subst mx'; [left; auto|right; left; auto].
    + cbn [int_step] in H. apply IH in H as (H1 & H2 & H3 & H4 & H5).
      split; [lia|]. split; [lia|]. split; [intros w [[=]|Hw]; apply H3; auto|].
      split; [destruct H4; auto; right; right; auto|destruct H5; auto; right; right; auto].
Qed.

(* the bounds of a page with a value are values of the page, in range otherwise *)
Lemma int_statistics_ok : forall lo hi arrays mn mx nc, (lo <= hi)%Z -> (forall z, In (Some z) (concat arrays) -> (lo <= z <= hi)%Z) ->
  int_statistics lo hi arrays = (mn, mx, nc) ->
  nc = count_nulls (concat arrays) /\ (forall z, In (Some z) (concat arrays) -> (mn <= z <= mx)%Z) /\ (mn <= mx)%Z /\
  ((exists z, In (Some z) (concat arrays)) -> In (Some mn) (concat arrays) /\ In (Some mx) (concat arrays)).
Proof.
  intros lo hi arrays mn mx nc Hr Ht H. unfold int_statistics in H. rewrite int_arrays_fold in H.
  destruct (fold_left int_step (concat arrays) (hi, lo)) as [a b] eqn:E.
  apply int_step_fold in E as (H1 & H2 & H3 & H4 & H5). cbn [andb] in H.
  destruct (forallb _ (concat arrays)) eqn:Ef; injection H as <- <- <-; (split; [reflexivity|]).
  - rewrite forallb_forall in Ef. split; [intros z Hz; specialize (Ef _ Hz); discriminate|]. split; auto.
    intros [z Hz]. specialize (Ef _ Hz). discriminate.
  - split; auto. assert (Hex : exists z, In (Some z) (concat arrays)).
    { clear -Ef. induction (concat arrays) as [|o l IH]; [discriminate|]. cbn [forallb] in Ef.
      destruct o as [z|]; [exists z; left; auto|]. destruct (IH Ef) as [z Hz]. exists z. right; auto. }
    assert (Hab : In (Some a) (concat arrays) /\ In (Some b) (concat arrays)).
    { destruct Hex as [z Hz]. pose proof (H3 z Hz). pose proof (Ht z Hz). split.
      - destruct H4 as [->|H4]; auto. replace hi with z by lia. auto.
      - destruct H5 as [->|H5]; auto. replace lo with z by lia. auto. }
    split; [apply H3; tauto|]. intros _. exact Hab.
Qed.

(* ---- floats: everything that is not a NaN ---- *)
Lemma float_arrays_fold : forall inf arrays mn mx nc,
  fold_left (float_array inf) arrays (mn, mx, nc) =
  (fold_left (float_step inf) (concat arrays) (mn, mx), (nc + count_nulls (concat arrays))%N).
Proof.
  induction arrays as [|a arrays IH]; intros mn mx nc; cbn [fold_left concat].
  - unfold count_nulls. cbn. rewrite N.add_0_r. reflexivity.
  - rewrite fold_left_app, count_nulls_app. unfold float_array at 2.
    destruct (count_nulls a =? N.of_nat (length a))%N eqn:E.
    + apply N.eqb_eq in E. rewrite IH, (fold_nulls (float_step inf) (fun s => eq_refl) a (mn, mx) (count_nulls_all a E)), N.add_assoc. reflexivity.
    + destruct (fold_left (float_step inf) a (mn, mx)) as [mn' mx'] eqn:Ef. rewrite IH, N.add_assoc. reflexivity.
Qed.

Lemma float_step_fold : forall inf l mn mx mn' mx', f_nan inf mn = false -> f_nan inf mx = false ->
  fold_left (float_step inf) l (mn, mx) = (mn', mx') ->
  f_nan inf mn' = false /\ f_nan inf mx' = false /\ (f_signed mn' <= f_signed mn)%Z /\ (f_signed mx <= f_signed mx')%Z /\
  (forall f, In (Some f) l -> f_nan inf f = false -> (f_signed mn' <= f_signed f <= f_signed mx')%Z).
Proof.
  intros inf. induction l as [|o l IH]; intros mn mx mn' mx' Hn Hx H; cbn [fold_left] in H.
  - injection H as <- <-. split; auto. split; auto. split; [lia|]. split; [lia|]. intros; contradiction.
  - destruct o as [f|].
    + cbn [float_step] in H. unfold f_partial_cmp in H. rewrite Hn, Hx, !orb_false_r in H.
      destruct (f_nan inf f) eqn:Ef.
      * apply IH in H as (H1 & H2 & H3 & H4 & H5); auto. do 4 (split; auto).
        intros g [[= ->]|Hg] Hgn; [congruence|auto].
      * assert (E : exists mn1 mx1, fold_left (float_step inf) l (mn1, mx1) = (mn', mx') /\ f_nan inf mn1 = false /\ f_nan inf mx1 = false /\
                   f_signed mn1 = Z.min (f_signed f) (f_signed mn) /\ f_signed mx1 = Z.max (f_signed f) (f_signed mx)).
        { do 2 eexists. split; [exact H|].
          destruct (Z.compare_spec (f_signed f) (f_signed mx)), (Z.compare_spec (f_signed f) (f_signed mn)); repeat split; auto; lia. }
        clear H. destruct E as (mn1 & mx1 & H & H1 & H2 & H3 & H4).
        apply IH in H as (G1 & G2 & G3 & G4 & G5); auto. do 2 (split; auto). split; [lia|]. split; [lia|].
        intros g [[= ->]|Hg] Hgn; [lia|auto].
    + cbn [float_step] in H. apply IH in H as (H1 & H2 & H3 & H4 & H5); auto. do 4 (split; auto).
      intros g [[=]|Hg]; auto.
Qed.

Lemma float_min_key : forall inf a b, f_nan inf a = false -> (f_signed a <= f_signed b)%Z ->
  (f_key (if f_eqb inf a f_zero then f_nzero else a) <= f_key b)%Z.
Proof.
  intros inf a b Ha H. unfold f_eqb, f_partial_cmp. rewrite Ha. change (f_nan inf f_zero) with (inf <? 0)%N.
  replace (inf <? 0)%N with false by (destruct inf; reflexivity). cbn [orb]. change (f_signed f_zero) with 0%Z.
  unfold f_key, f_signed in *. destruct (Z.compare_spec (if fneg a then - Z.of_N (fmag a) else Z.of_N (fmag a)) 0);
    cbn [fneg fmag f_nzero]; destruct (fneg a), (fneg b); lia.
Qed.
Lemma float_max_key : forall inf a b, f_nan inf a = false -> (f_signed b <= f_signed a)%Z ->
  (f_key b <= f_key (if f_eqb inf a f_nzero then f_zero else a))%Z.
Proof.
  intros inf a b Ha H. unfold f_eqb, f_partial_cmp. rewrite Ha. change (f_nan inf f_nzero) with (inf <? 0)%N.
  replace (inf <? 0)%N with false by (destruct inf; reflexivity). cbn [orb]. change (f_signed f_nzero) with 0%Z.
  unfold f_key, f_signed in *. destruct (Z.compare_spec (if fneg a then - Z.of_N (fmag a) else Z.of_N (fmag a)) 0);
    cbn [fneg fmag f_zero]; destruct (fneg a), (fneg b); lia.
Qed.

Lemma f_signed_inf : forall inf f, f_nan inf f = false -> (f_signed (f_ninf inf) <= f_signed f <= f_signed (f_inf inf))%Z.
Proof. intros inf f H. unfold f_nan in H. apply N.ltb_ge in H. unfold f_signed; cbn [fneg fmag f_inf f_ninf]. destruct (fneg f); lia. Qed.
Lemma f_nan_inf : forall inf, f_nan inf (f_inf inf) = false /\ f_nan inf (f_ninf inf) = false.
Proof. intros. unfold f_nan. cbn [fmag f_inf f_ninf]. split; apply N.ltb_irrefl. Qed.

Lemma float_statistics_ok : forall inf arrays st, get_float_statistics inf arrays = st ->
  st_nulls st = count_nulls (concat arrays) /\
  exists mn mx, st_min st = Some (VFloat mn) /\ st_max st = Some (VFloat mx) /\
    (forall f, In (Some f) (concat arrays) -> f_nan inf f = false -> (f_key mn <= f_key f <= f_key mx)%Z) /\ (f_key mn <= f_key mx)%Z.
Proof.
  intros inf arrays st <-. unfold get_float_statistics, float_statistics. rewrite float_arrays_fold.
  destruct (fold_left (float_step inf) (concat arrays) (f_inf inf, f_ninf inf)) as [mn mx] eqn:E.
  destruct (f_nan_inf inf) as [I1 I2].
  destruct (float_step_fold inf _ _ _ _ _ I1 I2 E) as (H1 & H2 & H3 & H4 & H5). rewrite N.add_0_l.
  assert (K : exists a b, (if f_eqb inf mn (f_inf inf) && f_eqb inf mx (f_ninf inf) then (f_ninf inf, f_inf inf, count_nulls (concat arrays))
                           else (mn, mx, count_nulls (concat arrays))) = (a, b, count_nulls (concat arrays)) /\
               f_nan inf a = false /\ f_nan inf b = false /\ (f_signed a <= f_signed b)%Z /\
               (forall f, In (Some f) (concat arrays) -> f_nan inf f = false -> (f_signed a <= f_signed f <= f_signed b)%Z)).
  { destruct (f_eqb inf mn (f_inf inf) && f_eqb inf mx (f_ninf inf)) eqn:Eb.
    - do 2 eexists. split; [reflexivity|]. split; auto. split; auto. split; [apply f_signed_inf; auto|].
      intros f _ Hf. apply f_signed_inf; auto.
    - do 2 eexists. split; [reflexivity|]. split; auto. split; auto. split; auto.
      destruct (in_dec (fun a b : bool => bool_dec a b) true (map (fun o => match o with Some f => negb (f_nan inf f) | None => false end) (concat arrays))) as [Hin|Hout].
      + apply in_map_iff in Hin as ([f|] & Hf & Hi); [|discriminate]. apply negb_true_iff in Hf. specialize (H5 f Hi Hf). lia.
      + exfalso. assert (Hnone : fold_left (float_step inf) (concat arrays) (f_inf inf, f_ninf inf) = (f_inf inf, f_ninf inf)).
        { clear -Hout. induction (concat arrays) as [|o l IH]; auto. cbn [fold_left map] in *.
          replace (float_step inf (f_inf inf, f_ninf inf) o) with (f_inf inf, f_ninf inf).
          - apply IH. intros H. apply Hout. right; auto.
          - destruct o as [f|]; auto. destruct (f_nan inf f) eqn:Ef; [|exfalso; apply Hout; left; auto].
            cbn [float_step]. unfold f_partial_cmp. rewrite Ef. reflexivity. }
        rewrite Hnone in E. injection E as <- <-. unfold f_eqb, f_partial_cmp in Eb. rewrite I1, I2 in Eb. cbn [orb] in Eb.
        rewrite !Z.compare_refl in Eb. discriminate. }
  destruct K as (a & b & -> & Ka & Kb & Kab & Kf). cbn [st_nulls st_min st_max]. split; auto.
  do 2 eexists. split; [reflexivity|]. split; [reflexivity|]. split.
  - intros f Hi Hf. specialize (Kf f Hi Hf). split; [apply float_min_key; auto; lia|apply float_max_key; auto; lia].
  - etransitivity; [apply (float_min_key inf a b); auto|]. apply float_max_key; auto. lia.
Qed.
