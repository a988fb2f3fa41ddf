(* Statistics of strings and binary values: cut prefixes and incremented bounds. *)
From Coq Require Import List Arith NArith ZArith Bool Lia.
From Verif Require Import Lib StatsModel StatsProofs.
Import ListNotations.
Local Open Scope nat_scope.

(* ---- the order on byte strings ---- *)
Lemma bcmp_refl : forall a, bcmp a a = Eq.
Proof. induction a; cbn [bcmp]; auto. rewrite N.compare_refl. auto. Qed.
Lemma bcmp_sym : forall a b, bcmp b a = CompOpp (bcmp a b).
Proof.
  induction a as [|x a IH]; intros [|y b]; cbn [bcmp]; auto. rewrite (N.compare_antisym x y).
  destruct (N.compare x y); cbn [CompOpp]; auto.
Qed.
Lemma bcmp_eq : forall a b, bcmp a b = Eq -> a = b.
Proof.
  induction a as [|x a IH]; intros [|y b] H; cbn [bcmp] in H; try discriminate; auto.
  destruct (N.compare_spec x y); try discriminate. subst. f_equal. auto.
Qed.
Lemma bcmp_trans : forall a b c, bcmp a b = Lt -> bcmp b c = Lt -> bcmp a c = Lt.
Proof.
  induction a as [|x a IH]; intros [|y b] [|z c] H1 H2; cbn [bcmp] in *; try discriminate; auto.
  destruct (N.compare_spec x y), (N.compare_spec y z); try discriminate; subst; rewrite ?N.compare_refl; eauto.
  - replace (y ?= z)%N with Lt by (symmetry; apply N.compare_lt_iff; lia). auto.
  - replace (x ?= z)%N with Lt by (symmetry; apply N.compare_lt_iff; lia). auto.
  - replace (x ?= z)%N with Lt by (symmetry; apply N.compare_lt_iff; lia). auto.
Qed.
Lemma ble_cases : forall a b, bcmp a b <> Gt -> bcmp a b = Lt \/ a = b.
Proof. intros a b H. destruct (bcmp a b) eqn:E; auto. right. apply bcmp_eq; auto. congruence. Qed.
Lemma ble_trans : forall a b c, bcmp a b <> Gt -> bcmp b c <> Gt -> bcmp a c <> Gt.
Proof.
  intros a b c H1 H2. apply ble_cases in H1 as [H1|<-]; auto. apply ble_cases in H2 as [H2|<-]; [|congruence].
  rewrite (bcmp_trans _ _ _ H1 H2). discriminate.
Qed.
Lemma ble_refl : forall a, bcmp a a <> Gt.
Proof. intros. rewrite bcmp_refl. discriminate. Qed.
Lemma bcmp_gt_lt : forall a b, bcmp a b = Gt -> bcmp b a = Lt.
Proof. intros a b H. rewrite bcmp_sym, H. reflexivity. Qed.

Lemma ble_prefix : forall p x, bcmp p (p ++ x) <> Gt.
Proof. induction p as [|b p IH]; intros x; cbn [app bcmp]; [destruct x; discriminate|]. rewrite N.compare_refl. auto. Qed.
Lemma bcmp_diverge : forall p b c x y, (b < c)%N -> bcmp (p ++ b :: x) (p ++ c :: y) = Lt.
Proof.
  induction p as [|d p IH]; intros b c x y H; cbn [app bcmp].
  - apply N.compare_lt_iff in H. now rewrite H.
  - rewrite N.compare_refl. auto.
Qed.
(* something below, and at least as long as, a string stays below it when extended *)
Lemma bcmp_extend : forall t m x, bcmp t m = Lt -> length m <= length t -> bcmp (t ++ x) m = Lt.
Proof.
  induction t as [|b t IH]; intros [|c m] x H L; cbn [bcmp app length] in *; try discriminate; try lia.
  destruct (N.compare_spec b c); auto; try discriminate. apply IH; auto. lia.
Qed.

(* ---- incremented bounds are above every extension ---- *)
Definition above (m r : list N) : Prop := forall x, bcmp (m ++ x) r = Lt.

Lemma nth_split_at : forall (s : list N) i, i < length s -> s = firstn i s ++ nth i s 0%N :: skipn (S i) s.
Proof.
  induction s as [|b s IH]; intros i H; cbn [length] in H; [lia|]. destruct i as [|i]; cbn [firstn nth skipn app]; auto.
  f_equal. apply IH. lia.
Qed.
Lemma set_byte_above : forall s i b, i < length s -> (nth i s 0 < b)%N -> above s (set_byte s i b).
Proof.
  intros s i b Hi Hb x. unfold set_byte. rewrite (nth_split_at s i Hi) at 1. rewrite <- app_assoc. cbn [app]. apply bcmp_diverge; auto.
Qed.
Lemma first_valid_in : forall s i bytes r, first_valid s i bytes = Some r -> exists b, In b bytes /\ r = set_byte s i b.
Proof.
  induction bytes as [|b t IH]; intros r H; cbn [first_valid] in H; [discriminate|].
  destruct (valid_utf8 (set_byte s i b)); [injection H as <-; exists b; split; [left|]; auto|].
  destruct (IH r H) as (c & Hc & E). exists c. split; [right|]; auto.
Qed.
Lemma increment_utf8_above : forall s r, increment_utf8 s = Some r -> above s r.
Proof.
  intros s r H. unfold increment_utf8 in H. assert (Hn : length s <= length s) by lia. revert H Hn. generalize (length s) at 1 2.
  induction n as [|i IH]; intros H Hn; cbn [increment_utf8_from] in H; [discriminate|].
  destruct (first_valid s i (bytes_after (nth i s 0%N))) as [r'|] eqn:E; [|apply IH; auto; lia].
  injection H as ->. destruct (first_valid_in _ _ _ _ E) as (b & Hb & ->). apply set_byte_above; [lia|].
  unfold bytes_after in Hb. apply nrange_In in Hb. lia.
Qed.
Lemma increment_rev_above : forall l r, increment_rev l = Some r -> above (rev l) (rev r).
Proof.
  induction l as [|b l IH]; intros r H; cbn [increment_rev] in H; [discriminate|].
  destruct (b =? 255)%N eqn:E.
  - destruct (increment_rev l) as [t|] eqn:El; [|discriminate]. injection H as <-. intros x. cbn [rev].
    rewrite <- app_assoc. specialize (IH t eq_refl ([b] ++ x)).
    destruct (rev t) as [|c rt] eqn:Er; [destruct (rev l); discriminate|].
    assert (L : length (rev l) = length (c :: rt)).
    { rewrite <- Er, !rev_length. clear -El. revert t El. induction l as [|d l IH]; intros t H; cbn [increment_rev] in H; [discriminate|].
      destruct (d =? 255)%N; [destruct (increment_rev l) eqn:E; [|discriminate]; injection H as <-; cbn [length]; rewrite (IH l0); auto|].
      injection H as <-. reflexivity. }
    revert IH L. generalize (c :: rt) as q. generalize (rev l) as p. clear.
    induction p as [|d p IH]; intros [|e q] H L; cbn [app bcmp length] in *; try discriminate.
    destruct (N.compare_spec d e); auto.
  - injection H as <-. intros x. cbn [rev]. rewrite <- app_assoc. cbn [app]. apply bcmp_diverge. lia.
Qed.
Lemma increment_above : forall s r, increment s = Some r -> above s r.
Proof.
  intros s r H. unfold increment in H. destruct (increment_rev (rev s)) as [t|] eqn:E; [|discriminate]. injection H as <-.
  apply increment_rev_above in E. rewrite rev_involutive in E. exact E.
Qed.
Lemma above_le : forall m r, above m r -> bcmp m r <> Gt.
Proof. intros m r H. specialize (H []). rewrite app_nil_r in H. congruence. Qed.

(* ---- the running bounds ---- *)
(* what the loop compares instead of a value *)
Definition cut_of (truncate : list N -> nat -> option (list N)) (w t : list N) : Prop :=
  (length w <= prefix_length /\ t = w) \/ (prefix_length < length w /\ truncate w prefix_length = Some t).

Lemma bytes_step_none : forall tr s, bytes_step tr s None = s.
Proof. intros tr [[[mn mx] cut]|]; reflexivity. Qed.
Lemma bytes_arrays_fold : forall tr arrays st nc,
  fold_left (bytes_array tr) arrays (st, nc) =
  (fold_left (bytes_step tr) (concat arrays) st, (nc + count_nulls (concat arrays))%N).
Proof.
  induction arrays as [|a arrays IH]; intros st nc; cbn [fold_left concat].
  - unfold count_nulls. cbn. rewrite N.add_0_r. reflexivity.
  - rewrite fold_left_app, count_nulls_app. unfold bytes_array at 2.
    destruct (count_nulls a =? N.of_nat (length a))%N eqn:E.
    + apply N.eqb_eq in E. rewrite IH.
      rewrite (fold_nulls (bytes_step tr) (bytes_step_none tr) a st (count_nulls_all a E)), N.add_assoc. reflexivity.
    + rewrite IH, N.add_assoc. reflexivity.
Qed.

Definition le_opt (a b : option (list N)) : Prop := match a, b with Some x, Some y => bcmp x y <> Gt | None, _ => True | _, None => False end.

Lemma bytes_step_fold : forall tr l,
  (forall w, In (Some w) l -> exists t, cut_of tr w t) ->
  forall mn mx cut, (mn = None <-> mx = None) ->
  exists mn' mx' cut', fold_left (bytes_step tr) l (Some (mn, mx, cut)) = Some (mn', mx', cut') /\
    (mn' = None <-> mx' = None) /\
    (forall m, mn = Some m -> exists m', mn' = Some m' /\ bcmp m' m <> Gt) /\
    (forall m, mx = Some m -> exists m', mx' = Some m' /\ bcmp m m' <> Gt) /\
    (cut = true -> cut' = true) /\
    (forall m, mx' = Some m -> mx = Some m \/ exists w, In (Some w) l /\ cut_of tr w m) /\
    (forall m, mn' = Some m -> mn = Some m \/ exists w, In (Some w) l /\ cut_of tr w m) /\
    (forall w, In (Some w) l -> exists t m M, cut_of tr w t /\ mn' = Some m /\ mx' = Some M /\ bcmp m t <> Gt /\ bcmp t M <> Gt /\
                                              (prefix_length < length w -> cut' = true)).
Proof.
  intros tr. induction l as [|o l IH]; intros Hc mn mx cut Hn.
  - exists mn, mx, cut. cbn [fold_left]. split; auto. split; auto. split; [intros; eexists; split; eauto using ble_refl|].
    split; [intros; eexists; split; eauto using ble_refl|]. split; auto. split; auto. split; auto. intros; contradiction.
  - cbn [fold_left]. destruct o as [w|].
    + destruct (Hc w (or_introl eq_refl)) as [t Ht].
      assert (E : exists c1, (cut = true -> c1 = true) /\ (prefix_length < length w -> c1 = true) /\
        bytes_step tr (Some (mn, mx, cut)) (Some w) =
        Some (match mn with Some m => match bcmp t m with Lt => Some t | _ => mn end | None => Some t end,
              match mx with Some m => match bcmp t m with Gt => Some t | _ => mx end | None => Some t end, c1)).
      { unfold bytes_step. destruct Ht as [[L ->]|[L T]].
        - replace (prefix_length <? length w) with false by (symmetry; apply Nat.ltb_ge; auto).
          exists cut. split; auto. split; [lia|]. reflexivity.
        - replace (prefix_length <? length w) with true by (symmetry; apply Nat.ltb_lt; auto). rewrite T.
          exists true. auto. }
      destruct E as (c1 & Ec1 & Ec2 & ->).
      set (mn1 := match mn with Some m => match bcmp t m with Lt => Some t | _ => mn end | None => Some t end).
      set (mx1 := match mx with Some m => match bcmp t m with Gt => Some t | _ => mx end | None => Some t end).
      assert (Hmn1 : exists m1, mn1 = Some m1 /\ bcmp m1 t <> Gt /\ (forall m, mn = Some m -> bcmp m1 m <> Gt) /\ (mn = Some m1 \/ m1 = t)).
      { unfold mn1. destruct mn as [m|]; [|exists t; repeat split; auto using ble_refl; intros; discriminate].
        destruct (bcmp t m) eqn:E.
        - apply bcmp_eq in E. subst m. exists t. repeat split; auto using ble_refl. intros m [= <-]. apply ble_refl.
        - exists t. repeat split; auto using ble_refl. intros m' [= <-]. congruence.
        - exists m. repeat split; auto. { rewrite (bcmp_gt_lt _ _ E). discriminate. } intros m' [= <-]. apply ble_refl. }
      assert (Hmx1 : exists m1, mx1 = Some m1 /\ bcmp t m1 <> Gt /\ (forall m, mx = Some m -> bcmp m m1 <> Gt) /\ (mx = Some m1 \/ m1 = t)).
      { unfold mx1. destruct mx as [m|]; [|exists t; repeat split; auto using ble_refl; intros; discriminate].
        destruct (bcmp t m) eqn:E.
        - apply bcmp_eq in E. subst m. exists t. repeat split; auto using ble_refl. intros m [= <-]. apply ble_refl.
        - exists m. repeat split; auto. { congruence. } intros m' [= <-]. apply ble_refl.
        - exists t. repeat split; auto using ble_refl. intros m' [= <-]. rewrite (bcmp_gt_lt _ _ E). discriminate. }
      destruct Hmn1 as (a & Ea & Ha1 & Ha2 & Ha3), Hmx1 as (b & Eb & Hb1 & Hb2 & Hb3).
      destruct (IH (fun w' H => Hc w' (or_intror H)) mn1 mx1 c1) as (mn' & mx' & cut' & F & I1 & I2 & I3 & I4 & I5 & I6 & I7).
      { rewrite Ea, Eb. split; discriminate. }
      destruct (I2 a Ea) as (a' & -> & Ha'), (I3 b Eb) as (b' & -> & Hb').
      exists (Some a'), (Some b'), cut'. split; auto. split; auto.
      split; [intros m Hm; exists a'; split; auto; eapply ble_trans; [exact Ha'|]; auto|].
      split; [intros m Hm; exists b'; split; auto; eapply ble_trans; [|exact Hb']; auto|].
      split; auto. split; [|split].
      * intros m Hm. destruct (I5 m Hm) as [H|(w' & H & H')]; [|right; exists w'; split; [right|]; auto].
        rewrite Eb in H. injection H as <-. destruct Hb3 as [Hb3| ->]; auto. right. exists w. split; [left|]; auto.
      * intros m Hm. destruct (I6 m Hm) as [H|(w' & H & H')]; [|right; exists w'; split; [right|]; auto].
        rewrite Ea in H. injection H as <-. destruct Ha3 as [Ha3| ->]; auto. right. exists w. split; [left|]; auto.
      * intros w' [[= <-]|Hw']; [|apply I7; auto].
        exists t, a', b'. split; auto. split; auto. split; auto. split; [eapply ble_trans; eauto|]. split; [eapply ble_trans; eauto|]. auto.
    + cbn [bytes_step]. destruct (IH (fun w' H => Hc w' (or_intror H)) mn mx cut Hn) as (mn' & mx' & cut' & F & I1 & I2 & I3 & I4 & I5 & I6 & I7).
      exists mn', mx', cut'. do 5 (split; auto). split; [|split].
      * intros m Hm. destruct (I5 m Hm) as [H|(w' & H & H')]; auto. right; exists w'; split; [right|]; auto.
      * intros m Hm. destruct (I6 m Hm) as [H|(w' & H & H')]; auto. right; exists w'; split; [right|]; auto.
      * intros w' [[=]|Hw']. auto.
Qed.

(* ---- the statistics ---- *)
(* a way to cut that yields a prefix, and an increment above every extension *)
Definition cuts_prefix (tr : list N -> nat -> option (list N)) : Prop :=
  forall w t, tr w prefix_length = Some t -> exists x, w = t ++ x.
Lemma cut_prefix : forall tr w t, cuts_prefix tr -> cut_of tr w t -> exists x, w = t ++ x.
Proof. intros tr w t H [[_ ->]|[_ T]]; [exists []; symmetry; apply app_nil_r|auto]. Qed.

(* every long value is cut at the full prefix length *)
Definition cuts_full (tr : list N -> nat -> option (list N)) (w : list N) : Prop :=
  prefix_length < length w -> tr w prefix_length = Some (firstn prefix_length w).

Lemma cut_length : forall tr w t, cuts_full tr w -> cut_of tr w t -> length t <= prefix_length.
Proof.
  intros tr w t F [[L ->]|[L T]]; auto. rewrite (F L) in T. replace t with (firstn prefix_length w) by congruence. rewrite firstn_length. apply Nat.le_min_l.
Qed.

Lemma bytes_lower : forall tr incr arrays, cuts_prefix tr ->
  (forall w, In (Some w) (concat arrays) -> exists t, cut_of tr w t) ->
  (forall m r, incr m = Some r -> above m r) ->
  exists st, get_bytes_statistics tr incr arrays = Some st /\ st_nulls st = count_nulls (concat arrays) /\
    (forall m, st_min st = Some m -> exists b, m = VBytes b) /\ (forall m, st_max st = Some m -> exists b, m = VBytes b) /\
    (forall a b, st_min st = Some (VBytes a) -> st_max st = Some (VBytes b) -> bcmp a b <> Gt) /\
    (forall w m, In (Some w) (concat arrays) -> st_min st = Some (VBytes m) -> bcmp m w <> Gt).
Proof.
  intros tr incr arrays Hp Hc Ha. unfold get_bytes_statistics. rewrite bytes_arrays_fold.
  destruct (bytes_step_fold tr (concat arrays) Hc None None false) as (mn & mx & cut & -> & H1 & _ & _ & _ & H5 & H6 & H7); [tauto|].
  eexists. split; [reflexivity|]. cbn [st_nulls st_min st_max]. split; [apply N.add_0_l|].
  split; [intros m; destruct mn; cbn [option_map]; [intros [= <-]; eauto|discriminate]|].
  split. { intros m. destruct mx as [M|]; cbn [option_map]; [destruct cut; [destruct (incr M)|]|]; cbn [option_map]; try discriminate; intros [= <-]; eauto. }
  split.
  - intros a b Ea Eb. destruct mn as [m|]; [|discriminate]. injection Ea as ->.
    destruct mx as [M|]; [|discriminate].
    destruct (H6 a eq_refl) as [H|(w & Hw & _)]; [discriminate|].
    destruct (H7 w Hw) as (t & m' & M' & _ & [= <-] & [= <-] & L1 & L2 & _).
    assert (bcmp a M <> Gt) by (eapply ble_trans; eauto).
    destruct cut; cbn [option_map] in Eb; [|injection Eb as <-; auto].
    destruct (incr M) as [r|] eqn:Er; [|discriminate]. injection Eb as <-.
    eapply ble_trans; [eassumption|]. apply above_le. apply Ha. exact Er.
  - intros w m Hw Em. destruct mn as [m'|]; [|discriminate]. injection Em as ->.
    destruct (H7 w Hw) as (t & m' & M' & Ct & [= <-] & _ & L1 & _). destruct (cut_prefix tr w t Hp Ct) as [x ->].
    eapply ble_trans; [exact L1|]. apply ble_prefix.
Qed.

Lemma bytes_upper : forall tr incr arrays st, cuts_prefix tr ->
  (forall w, In (Some w) (concat arrays) -> cuts_full tr w) ->
  (forall m r, incr m = Some r -> above m r) ->
  get_bytes_statistics tr incr arrays = Some st ->
  forall w m, In (Some w) (concat arrays) -> st_max st = Some (VBytes m) -> bcmp w m <> Gt.
Proof.
  intros tr incr arrays st Hp Hf Ha H w m Hw Hm. unfold get_bytes_statistics in H. rewrite bytes_arrays_fold in H.
  assert (Hc : forall w, In (Some w) (concat arrays) -> exists t, cut_of tr w t).
  { intros v Hv. destruct (le_lt_dec (length v) prefix_length) as [L|L]; [exists v; left; auto|].
    exists (firstn prefix_length v). right. split; auto. apply Hf; auto. }
  destruct (bytes_step_fold tr (concat arrays) Hc None None false) as (mn & mx & cut & E & H1 & _ & _ & _ & H5 & H6 & H7); [tauto|].
  rewrite E in H. injection H as <-. cbn [st_max] in Hm.
  destruct (H7 w Hw) as (t & m' & M & Ct & -> & -> & _ & L2 & Lc).
  destruct (cut_prefix tr w t Hp Ct) as [x Ex].
  destruct cut.
  - destruct (incr M) as [r|] eqn:Er; [|discriminate]. cbn [option_map] in Hm. injection Hm as <-.
    pose proof (Ha M r Er) as Hab. apply ble_cases in L2 as [L2| ->]; [|subst w; rewrite (Hab x); discriminate].
    destruct Ct as [[L ->]|[L T]].
    + eapply ble_trans; [rewrite L2; discriminate|apply above_le; auto].
    + assert (LM : length M <= length t).
      { destruct (H5 M eq_refl) as [H|(v & Hv & Cv)]; [discriminate|].
        pose proof (cut_length tr v M (Hf v Hv) Cv). rewrite (Hf w Hw L) in T.
        replace t with (firstn prefix_length w) by congruence. rewrite firstn_length_le; auto. lia. }
      subst w. rewrite (bcmp_trans _ M r); auto; [discriminate|apply bcmp_extend; auto|]. specialize (Hab []). rewrite app_nil_r in Hab. exact Hab.
  - cbn [option_map] in Hm. injection Hm as <-. destruct Ct as [[L ->]|[L T]]; auto. specialize (Lc L). discriminate.
Qed.

(* ---- binary ---- *)
Lemma truncate_binary_full : forall w, cuts_full truncate_binary w.
Proof. intros w L. unfold truncate_binary. replace (length w <? prefix_length) with false by (symmetry; apply Nat.ltb_ge; lia). reflexivity. Qed.
Lemma truncate_binary_prefix : cuts_prefix truncate_binary.
Proof.
  intros w t H. unfold truncate_binary in H. destruct (length w <? prefix_length); [discriminate|].
  replace t with (firstn prefix_length w) by congruence. exists (skipn prefix_length w). symmetry. apply firstn_skipn.
Qed.

(* ---- strings ---- *)
Lemma char_end_le : forall s p q, char_end s p = Some q -> q <= p.
Proof.
  induction p as [|p IH]; intros q H; cbn [char_end] in H; [discriminate|]. destruct (boundary s (S p)); [injection H as <-; lia|].
  apply IH in H. lia.
Qed.
Lemma truncate_utf8_prefix : cuts_prefix truncate_utf8.
Proof.
  intros w t H. unfold truncate_utf8 in H. destruct (length w <? prefix_length); [discriminate|].
  destruct (char_end w prefix_length) as [p|]; [|discriminate]. injection H as <-. exists (skipn p w). symmetry. apply firstn_skipn.
Qed.
Lemma truncate_utf8_full : forall w, length w <= prefix_length \/ boundary w prefix_length = true -> cuts_full truncate_utf8 w.
Proof.
  intros w [H|H] L; [lia|]. unfold truncate_utf8. replace (length w <? prefix_length) with false by (symmetry; apply Nat.ltb_ge; lia).
  unfold prefix_length in *. cbn [char_end]. rewrite H. reflexivity.
Qed.

(* a well-formed string has a character end in any four consecutive places *)
Lemma is_cont_range : forall lo hi b, (128 <= lo)%N -> (hi <= 191)%N -> byte_in lo hi b = true -> is_cont b = true.
Proof. intros lo hi b H1 H2 H. unfold byte_in, is_cont in *. lia. Qed.
Lemma valid_first : forall a t, valid_utf8 (a :: t) = true -> is_cont a = false.
Proof.
  intros a t H. unfold is_cont. cbn [valid_utf8] in H. destruct (a <=? 127)%N eqn:E; [lia|].
  destruct t as [|b t]; [discriminate|]. unfold byte_in in H.
  destruct ((194 <=? a) && (a <=? 223))%N eqn:E2; [lia|].
  destruct t as [|c t]; [discriminate|].
  destruct ((224 <=? a) && (a <=? 239))%N eqn:E3; [lia|].
  destruct t as [|d t]; [discriminate|].
  destruct ((240 <=? a) && (a <=? 244))%N eqn:E4; [lia|]. cbn [andb] in H. discriminate.
Qed.
Lemma valid_step : forall a t, valid_utf8 (a :: t) = true -> exists k, k <= 3 /\ k <= length t /\ valid_utf8 (skipn k t) = true.
Proof.
  intros a t H. cbn [valid_utf8] in H. destruct (a <=? 127)%N; [exists 0; repeat split; auto; lia|].
  destruct t as [|b t]; [discriminate|].
  destruct (byte_in 194 223 a).
  { apply andb_true_iff in H as [_ H]. exists 1. repeat split; auto; cbn [length]; lia. }
  destruct t as [|c t]; [discriminate|].
  destruct (byte_in 224 239 a).
  { apply andb_true_iff in H as [_ H]. exists 2. repeat split; auto; cbn [length]; lia. }
  destruct t as [|d t]; [discriminate|].
  apply andb_true_iff in H as [_ H]. exists 3. repeat split; auto; cbn [length]; lia.
Qed.
Lemma valid_boundary : forall n s, length s <= n -> valid_utf8 s = true -> forall i, exists j, i <= j <= i + 3 /\ boundary s j = true.
Proof.
  induction n as [|n IH]; intros s L V i.
  - destruct s; [|cbn [length] in L; lia]. exists i. split; [lia|]. unfold boundary. rewrite nth_error_nil'. reflexivity.
  - destruct s as [|a t]; [exists i; split; [lia|]; unfold boundary; rewrite nth_error_nil'; reflexivity|].
    cbn [length] in L. destruct (valid_step a t V) as (k & K1 & K2 & K3).
    destruct i as [|i]; [exists 0; split; [lia|]; unfold boundary; cbn [nth_error]; rewrite (valid_first a t V); reflexivity|].
    assert (Hsk : forall j, boundary (a :: t) (S (k + j)) = boundary (skipn k t) j).
    { intros j. unfold boundary. cbn [nth_error]. rewrite <- (firstn_skipn k t) at 1. rewrite nth_error_app2 by (rewrite firstn_length_le; lia).
      rewrite firstn_length_le by lia. replace (k + j - k) with j by lia. reflexivity. }
    destruct (IH (skipn k t)) with (i := i - k) as (j & Hj & Bj); auto.
    { rewrite skipn_length. lia. }
    destruct (le_lt_dec k i) as [Hk|Hk].
    + exists (S (k + j)). split; [lia|]. rewrite Hsk. exact Bj.
    + exists (S (k + 0)). split; [lia|]. rewrite Hsk. unfold boundary.
      destruct (skipn k t) as [|b u]; auto. cbn [nth_error]. rewrite (valid_first b u K3). reflexivity.
Qed.
Lemma char_end_found : forall s p j, 0 < j <= p -> boundary s j = true -> exists q, char_end s p = Some q.
Proof.
  induction p as [|p IH]; intros j H B; [lia|]. cbn [char_end]. destruct (boundary s (S p)) eqn:E; [eauto|].
  apply (IH j); auto. assert (j <> S p) by congruence. lia.
Qed.
(* the unwrap of the truncation does not fail *)
Lemma truncate_utf8_total : forall w, valid_utf8 w = true -> exists t, cut_of truncate_utf8 w t.
Proof.
  intros w V. destruct (le_lt_dec (length w) prefix_length) as [L|L]; [exists w; left; auto|].
  destruct (valid_boundary (length w) w (le_n _) V 61) as (j & Hj & B).
  destruct (char_end_found w prefix_length j) as [q Hq]; auto. { unfold prefix_length. lia. }
  exists (firstn q w). right. split; auto. unfold truncate_utf8. rewrite Hq.
  replace (length w <? prefix_length) with false by (symmetry; apply Nat.ltb_ge; lia). reflexivity.
Qed.
