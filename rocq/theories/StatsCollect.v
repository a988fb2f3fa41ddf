(* Booleans, and the statistics of a page of any type. *)
From Coq Require Import List Arith NArith ZArith Bool Lia.
From Verif Require Import Lib StatsModel StatsProofs StatsBytes.
Import ListNotations.
Local Open Scope nat_scope.

(* ---- booleans ---- *)
Lemma bool_seen_fold : forall l s, fst (fold_left bool_seen l s) = fst s || existsb (fun o => match o with Some true => true | _ => false end) l /\
  snd (fold_left bool_seen l s) = snd s || existsb (fun o => match o with Some false => true | _ => false end) l.
Proof.
  induction l as [|o l IH]; intros s; cbn [fold_left existsb]; [rewrite !orb_false_r; auto|].
  destruct (IH (bool_seen s o)) as [-> ->]. destruct s as [a b], o as [[]|]; cbn [bool_seen fst snd orb]; rewrite ?orb_true_r; auto.
Qed.
(* the values found, or both *)
Lemma bool_arrays_seen : forall arrays s nc t f nc', bool_arrays arrays s nc = (t, f, nc') ->
  (t = true /\ f = true) \/
  (t = fst s || existsb (fun o => match o with Some true => true | _ => false end) (concat arrays) /\
   f = snd s || existsb (fun o => match o with Some false => true | _ => false end) (concat arrays) /\
   nc' = (nc + count_nulls (concat arrays))%N).
Proof.
  induction arrays as [|a arrays IH]; intros s nc t f nc' H; cbn [bool_arrays concat existsb] in *.
  - right. injection H as -> <-. unfold count_nulls. cbn. rewrite !orb_false_r, N.add_0_r. auto.
  - rewrite !existsb_app, count_nulls_app, !orb_assoc, !N.add_assoc. destruct (bool_seen_fold a s) as [F1 F2].
    destruct (count_nulls a =? N.of_nat (length a))%N eqn:E.
    + apply N.eqb_eq in E. rewrite <- F1, <- F2, (fold_nulls bool_seen (fun s => eq_refl) a s (count_nulls_all a E)). auto.
    + destruct (fst (fold_left bool_seen a s) && snd (fold_left bool_seen a s)) eqn:Eb.
      * left. destruct (fold_left bool_seen a s) as [x y]. apply andb_true_iff in Eb as [E1 E2]. cbn [fst snd] in *. injection H as <- <- _. auto.
      * rewrite <- F1, <- F2. auto.
Qed.
Lemma boolean_statistics_ok : forall arrays, exists mn mx, let st := get_boolean_statistics arrays in
  st_min st = Some (VBool mn) /\ st_max st = Some (VBool mx) /\ implb mn mx = true /\
  (forall b, In (Some b) (concat arrays) -> implb mn b = true /\ implb b mx = true).
Proof.
  intros arrays. unfold get_boolean_statistics. destruct (bool_arrays arrays (false, false) 0%N) as [[t f] nc] eqn:E.
  do 2 eexists. cbn [st_min st_max]. split; [reflexivity|]. split; [reflexivity|].
  apply bool_arrays_seen in E as [[-> ->]|(-> & -> & _)]; [split; auto; intros []; auto|]. cbn [fst snd orb].
  split; [destruct (existsb _ _), (existsb _ _); auto|]. intros b Hb.
  destruct b; [replace (existsb (fun o => match o with Some true => true | _ => false end) (concat arrays)) with true
    by (symmetry; apply existsb_exists; exists (Some true); auto)|
   replace (existsb (fun o => match o with Some false => true | _ => false end) (concat arrays)) with true
    by (symmetry; apply existsb_exists; exists (Some false); auto)]; destruct (existsb _ _); auto.
Qed.
(* the count is right when one array is written, or not both values occur *)
Lemma boolean_nulls_ok : forall arrays, length arrays = 1 \/ ~ (In (Some true) (concat arrays) /\ In (Some false) (concat arrays)) ->
  st_nulls (get_boolean_statistics arrays) = count_nulls (concat arrays).
Proof.
  intros arrays H. unfold get_boolean_statistics. destruct H as [H|H].
  - destruct arrays as [|a [|b l]]; try discriminate. cbn [bool_arrays concat]. rewrite app_nil_r, N.add_0_l.
    destruct (count_nulls a =? N.of_nat (length a))%N; [reflexivity|]. destruct (fold_left bool_seen a (false, false)) as [x y].
    cbn [fst snd]. destruct (x && y); reflexivity.
  - assert (G : forall arrays s nc, ~ (fst s || existsb (fun o => match o with Some true => true | _ => false end) (concat arrays) = true /\
                        snd s || existsb (fun o => match o with Some false => true | _ => false end) (concat arrays) = true) ->
                snd (bool_arrays arrays s nc) = (nc + count_nulls (concat arrays))%N).
    { clear. induction arrays as [|a arrays IH]; intros s nc H; cbn [bool_arrays concat].
      - unfold count_nulls. cbn. lia.
      - cbn [concat] in H. rewrite !existsb_app, !orb_assoc in H. destruct (bool_seen_fold a s) as [F1 F2]. rewrite count_nulls_app, N.add_assoc.
        destruct (count_nulls a =? N.of_nat (length a))%N eqn:E.
        + apply N.eqb_eq in E. apply IH. rewrite <- F1, <- F2, (fold_nulls bool_seen (fun s => eq_refl) a s (count_nulls_all a E)) in H. exact H.
        + destruct (fst (fold_left bool_seen a s) && snd (fold_left bool_seen a s)) eqn:Eb.
          * exfalso. apply H. rewrite <- F1, <- F2. apply andb_true_iff in Eb as [-> ->]. auto.
          * apply IH. rewrite F1, F2. exact H. }
    specialize (G arrays (false, false) 0%N). destruct (bool_arrays arrays (false, false) 0%N) as [[t f] nc]. cbn [snd fst orb st_nulls] in *.
    rewrite G; [lia|]. intros [E1 E2]. apply H. rewrite existsb_exists in E1, E2.
    destruct E1 as ([[]|] & E1 & ?), E2 as ([[]|] & E2 & ?); try discriminate. auto.
Qed.

(* ---- any type ---- *)
Lemma sequence_opt_map : forall {A B} (f : A -> option B) (g : B -> A) l,
  (forall x, In x l -> exists y, f x = Some y /\ x = g y) -> exists m, sequence_opt (map f l) = Some m /\ l = map g m.
Proof.
  intros A B f g. induction l as [|x l IH]; intros H; [exists []; auto|].
  destruct (H x (or_introl eq_refl)) as (y & Ey & Eg). destruct IH as (m & Em & El); [intros z Hz; apply H; right; auto|].
  exists (y :: m). cbn [map sequence_opt]. rewrite Ey, Em. split; auto. cbn [map]. congruence.
Qed.
Lemma concat_map_map : forall {A B} (f : A -> B) l, concat (map (map f) l) = map f (concat l).
Proof. intros. symmetry. apply concat_map. Qed.
Lemma In_Some_map : forall {A B} (f : A -> B) l b, In (Some b) (map (option_map f) l) <-> exists a, In (Some a) l /\ b = f a.
Proof.
  intros A B f l b. rewrite in_map_iff. split.
  - intros ([a|] & E & H); [injection E as <-; eauto|discriminate].
  - intros (a & H & ->). exists (Some a). auto.
Qed.

(* the pages whose statistics are right *)
Definition plain (t : dtype) (arrays : list (list (option value))) : Prop :=
  match t with
  | TInt _ _ | TBinary => True
  | TFloat inf => forall f, In (Some (VFloat f)) (concat arrays) -> f_nan inf f = false
  | TUtf8 => forall s, In (Some (VBytes s)) (concat arrays) -> length s <= prefix_length \/ boundary s prefix_length = true
  | TBool => length arrays = 1 \/ ~ (In (Some (VBool true)) (concat arrays) /\ In (Some (VBool false)) (concat arrays))
  end.
Definition ordered (st : stat) : Prop := forall a b, st_min st = Some a -> st_max st = Some b -> vle a b.
Definition sane (t : dtype) : Prop := match t with TInt lo hi => (lo <= hi)%Z | _ => True end.

Lemma typed_ints : forall lo hi arrays, Forall (typed_array (TInt lo hi)) arrays ->
  exists l, sequence_opt (map as_ints arrays) = Some l /\ arrays = map (map (option_map VInt)) l.
Proof.
  intros lo hi arrays H. apply sequence_opt_map. intros a Ha. rewrite Forall_forall in H. specialize (H a Ha).
  apply (sequence_opt_map _ (option_map VInt)). intros [v|] Hv; [|exists None; auto]. specialize (H v Hv).
  destruct v; cbn [typed] in H; try contradiction. exists (Some z). auto.
Qed.
Lemma typed_bools : forall arrays, Forall (typed_array TBool) arrays ->
  exists l, sequence_opt (map as_bools arrays) = Some l /\ arrays = map (map (option_map VBool)) l.
Proof.
  intros arrays H. apply sequence_opt_map. intros a Ha. rewrite Forall_forall in H. specialize (H a Ha).
  apply (sequence_opt_map _ (option_map VBool)). intros [v|] Hv; [|exists None; auto]. specialize (H v Hv).
  destruct v; cbn [typed] in H; try contradiction. exists (Some b). auto.
Qed.
Lemma typed_floats : forall inf arrays, Forall (typed_array (TFloat inf)) arrays ->
  exists l, sequence_opt (map as_floats arrays) = Some l /\ arrays = map (map (option_map VFloat)) l.
Proof.
  intros inf arrays H. apply sequence_opt_map. intros a Ha. rewrite Forall_forall in H. specialize (H a Ha).
  apply (sequence_opt_map _ (option_map VFloat)). intros [v|] Hv; [|exists None; auto]. specialize (H v Hv).
  destruct v; cbn [typed] in H; try contradiction. exists (Some f). auto.
Qed.
Lemma typed_bytes : forall t arrays, t = TUtf8 \/ t = TBinary -> Forall (typed_array t) arrays ->
  exists l, sequence_opt (map as_bytes arrays) = Some l /\ arrays = map (map (option_map VBytes)) l.
Proof.
  intros t arrays Ht H. apply sequence_opt_map. intros a Ha. rewrite Forall_forall in H. specialize (H a Ha).
  apply (sequence_opt_map _ (option_map VBytes)). intros [v|] Hv; [|exists None; auto]. specialize (H v Hv).
  destruct Ht as [-> | ->], v; cbn [typed] in H; try contradiction; exists (Some l); auto.
Qed.

(* what holds of every page: the statistics exist, their bounds are in order, and they bound all values that compare as
   written (no NaN; strings only from below) *)
Definition good_value (t : dtype) (v : value) : Prop :=
  match t, v with TFloat inf, VFloat f => f_nan inf f = false | _, _ => True end.

Theorem collect_total : forall t arrays, arrays <> [] -> sane t -> Forall (typed_array t) arrays ->
  exists st, collect_statistics t arrays = Some st /\ ordered st /\
    (t <> TBool -> st_nulls st = count_nulls (concat arrays)) /\
    (forall v m, In (Some v) (concat arrays) -> good_value t v -> st_min st = Some m -> vle m v) /\
    (forall v m, In (Some v) (concat arrays) -> good_value t v -> t <> TUtf8 -> st_max st = Some m -> vle v m).
Proof.
  intros t arrays Hne Hs Ht. unfold collect_statistics. destruct arrays as [|a0 rest] eqn:Ea; [congruence|]. rewrite <- Ea in *. clear a0 rest Ea Hne.
  destruct t as [lo hi| |inf| |].
  - destruct (typed_ints lo hi arrays Ht) as (l & El & ->). rewrite El, concat_map_map, count_nulls_map. cbn [option_map].
    unfold get_statistics. destruct (int_statistics lo hi l) as [[mn mx] nc] eqn:E.
    destruct (int_statistics_ok lo hi l mn mx nc) as (H1 & H2 & H3 & H4); auto.
    { intros z Hz. rewrite Forall_forall in Ht. apply in_concat in Hz as (a & Ha & Hz).
      specialize (Ht (map (option_map VInt) a) (in_map _ _ _ Ha) (VInt z)). apply Ht. apply In_Some_map. eauto. }
    eexists. split; [reflexivity|]. cbn [st_nulls st_min st_max]. split; [intros x y [= <-] [= <-]; exact H3|]. split; auto.
    split; intros v m Hv; apply In_Some_map in Hv as (z & Hz & ->); specialize (H2 z Hz).
    + intros _ [= <-]. cbn [vle]. lia.
    + intros _ _ [= <-]. cbn [vle]. lia.
  - destruct (typed_bools arrays Ht) as (l & El & ->). rewrite El, concat_map_map, count_nulls_map. cbn [option_map].
    destruct (boolean_statistics_ok l) as (mn & mx & H1 & H2 & H3 & H4). eexists. split; [reflexivity|].
    split; [intros x y Ex Ey; rewrite H1 in Ex; rewrite H2 in Ey; injection Ex as <-; injection Ey as <-; exact H3|]. split; [congruence|].
    split; intros v m Hv; apply In_Some_map in Hv as (z & Hz & ->); destruct (H4 z Hz); intros; [rewrite H1 in *|rewrite H2 in *];
      match goal with H : Some _ = Some _ |- _ => injection H as <- end; cbn [vle]; auto.
  - destruct (typed_floats inf arrays Ht) as (l & El & ->). rewrite El, concat_map_map, count_nulls_map. cbn [option_map].
    destruct (float_statistics_ok inf l _ eq_refl) as (H1 & mn & mx & H2 & H3 & H4 & H5). eexists. split; [reflexivity|].
    split; [intros x y Ex Ey; rewrite H2 in Ex; rewrite H3 in Ey; injection Ex as <-; injection Ey as <-; exact H5|]. split; [auto|].
    split; intros v m Hv; apply In_Some_map in Hv as (z & Hz & ->); intros Hg; cbn [good_value] in Hg; destruct (H4 z Hz Hg); intros; [rewrite H2 in *|rewrite H3 in *];
      match goal with H : Some _ = Some _ |- _ => injection H as <- end; cbn [vle]; auto.
  - destruct (typed_bytes TUtf8 arrays (or_introl eq_refl) Ht) as (l & El & ->). rewrite El, concat_map_map, count_nulls_map.
    destruct (bytes_lower truncate_utf8 increment_utf8 l truncate_utf8_prefix) as (st & Est & H1 & H2 & H3 & H4 & H5); [|exact increment_utf8_above|].
    { intros w Hw. apply truncate_utf8_total. rewrite Forall_forall in Ht. apply in_concat in Hw as (a & Ha & Hw).
      apply (Ht (map (option_map VBytes) a) (in_map _ _ _ Ha) (VBytes w)). apply In_Some_map. eauto. }
    exists st. split; [exact Est|]. split.
    { intros x y Ex Ey. destruct (H2 x Ex) as [b ->], (H3 y Ey) as [c ->]. cbn [vle]. eauto. }
    split; auto. split; [|congruence].
    intros v m Hv _ Hm. apply In_Some_map in Hv as (z & Hz & ->). destruct (H2 m Hm) as [b ->]. cbn [vle]. eauto.
  - destruct (typed_bytes TBinary arrays (or_intror eq_refl) Ht) as (l & El & ->). rewrite El, concat_map_map, count_nulls_map.
    destruct (bytes_lower truncate_binary increment l truncate_binary_prefix) as (st & Est & H1 & H2 & H3 & H4 & H5); [|exact increment_above|].
    { intros w Hw. destruct (le_lt_dec (length w) prefix_length) as [L|L]; [exists w; left; auto|].
      exists (firstn prefix_length w). right. split; auto. apply truncate_binary_full; auto. }
    exists st. split; [exact Est|]. split.
    { intros x y Ex Ey. destruct (H2 x Ex) as [b ->], (H3 y Ey) as [c ->]. cbn [vle]. eauto. }
    split; auto. split.
    + intros v m Hv _ Hm. apply In_Some_map in Hv as (z & Hz & ->). destruct (H2 m Hm) as [b ->]. cbn [vle]. eauto.
    + intros v m Hv _ _ Hm. apply In_Some_map in Hv as (z & Hz & ->). destruct (H3 m Hm) as [b ->]. cbn [vle].
      eapply (bytes_upper truncate_binary increment l st truncate_binary_prefix); eauto using truncate_binary_full, increment_above.
Qed.

Theorem collect_covers : forall t arrays st, sane t -> Forall (typed_array t) arrays -> plain t arrays ->
  collect_statistics t arrays = Some st -> covers st (concat arrays).
Proof.
  intros t arrays st Hs Ht Hp Hc.
  destruct (collect_total t arrays) as (st' & E & _ & H1 & H2 & H3); auto. { intros ->. discriminate. }
  rewrite E in Hc. injection Hc as ->. split.
  - destruct t as [lo hi| |inf| |]; try (apply H1; discriminate).
    destruct (typed_bools arrays Ht) as (l & El & ->). unfold collect_statistics in E. rewrite El in E.
    destruct (map (map (option_map VBool)) l) eqn:Em; [discriminate|]. rewrite <- Em in *. cbn [option_map] in E. injection E as <-.
    rewrite concat_map_map, count_nulls_map. apply boolean_nulls_ok. unfold plain in Hp. rewrite map_length, concat_map_map in Hp.
    destruct Hp as [Hp|Hp]; auto. right. intros [G1 G2]. apply Hp. split; apply In_Some_map; eauto.
  - intros v Hv. assert (G : good_value t v).
    { destruct t, v; cbn [good_value]; auto. }
    split; [eauto|]. intros m Hm. destruct t as [lo hi| |inf| |]; try (apply (H3 v m); auto; discriminate).
    destruct (typed_bytes TUtf8 arrays (or_introl eq_refl) Ht) as (l & El & ->). unfold collect_statistics in E. rewrite El in E.
    destruct (map (map (option_map VBytes)) l) eqn:Em; [discriminate|]. rewrite <- Em in *.
    rewrite concat_map_map in Hv. apply In_Some_map in Hv as (z & Hz & ->).
    destruct (bytes_lower truncate_utf8 increment_utf8 l truncate_utf8_prefix) as (st' & Est & _ & _ & H4 & _); [|exact increment_utf8_above|].
    { intros w Hw. apply truncate_utf8_total. rewrite Forall_forall in Ht. apply in_concat in Hw as (a & Ha & Hw).
      apply (Ht (map (option_map VBytes) a) (in_map _ _ _ Ha) (VBytes w)). apply In_Some_map. eauto. }
    unfold get_string_statistics in E. rewrite Est in E. injection E as ->. destruct (H4 m Hm) as [b ->]. cbn [vle].
    eapply (bytes_upper truncate_utf8 increment_utf8 l st truncate_utf8_prefix); eauto using increment_utf8_above.
    intros w Hw. apply truncate_utf8_full. apply Hp. rewrite concat_map_map. apply In_Some_map. eauto.
Qed.

(* integers: the bounds are values of the page *)
Theorem integers_tight : forall lo hi arrays st v, (lo <= hi)%Z -> Forall (typed_array (TInt lo hi)) arrays ->
  collect_statistics (TInt lo hi) arrays = Some st -> In (Some v) (concat arrays) ->
  exists mn mx, st_min st = Some mn /\ st_max st = Some mx /\ In (Some mn) (concat arrays) /\ In (Some mx) (concat arrays).
Proof.
  intros lo hi arrays st v Hs Ht E Hv. unfold collect_statistics in E.
  destruct (typed_ints lo hi arrays Ht) as (l & El & ->). rewrite El in E.
  destruct (map (map (option_map VInt)) l) eqn:Em; [discriminate|]. rewrite <- Em in *. cbn [option_map] in E. injection E as <-.
  rewrite concat_map_map in *. apply In_Some_map in Hv as (z & Hz & ->).
  unfold get_statistics. destruct (int_statistics lo hi l) as [[mn mx] nc] eqn:E.
  destruct (int_statistics_ok lo hi l mn mx nc) as (_ & _ & _ & H4); auto.
  { intros y Hy. rewrite Forall_forall in Ht. apply in_concat in Hy as (a & Ha & Hy).
    specialize (Ht (map (option_map VInt) a) (in_map _ _ _ Ha) (VInt y)). apply Ht. apply In_Some_map. eauto. }
  destruct H4 as [G1 G2]; eauto. do 2 eexists. cbn [st_min st_max]. split; [reflexivity|]. split; [reflexivity|].
  split; apply In_Some_map; eauto.
Qed.

(* integers and binary values: no condition on the values *)
Theorem exact_types_cover : forall t arrays st, match t with TInt _ _ | TBinary => True | _ => False end ->
  sane t -> Forall (typed_array t) arrays -> collect_statistics t arrays = Some st -> covers st (concat arrays).
Proof. intros t arrays st Ht Hs Ha E. apply (collect_covers t arrays); auto. destruct t; cbn [plain]; auto; contradiction. Qed.
