From Coq Require Import List Arith NArith Bool Lia ZifyBool ZifyN ZifyNat.
From Verif Require Import Lib RowIdsModel RowIdsSpec.
Import ListNotations.
Local Open Scope nat_scope.
Local Opaque Nat.div Nat.modulo.

Lemma byte_get_testbit : forall x i, byte_get x i = N.testbit x (N.of_nat i).
Proof.
  intros. unfold byte_get. rewrite N.shiftl_1_l.
  destruct (N.testbit x (N.of_nat i)) eqn:E.
  - destruct (N.land x (2 ^ N.of_nat i) =? 0)%N eqn:E2; auto.
    apply N.eqb_eq in E2. assert (H : N.testbit (N.land x (2 ^ N.of_nat i)) (N.of_nat i) = false)
      by (rewrite E2; apply N.bits_0).
    rewrite N.land_spec, E, N.pow2_bits_true in H. discriminate.
  - replace (N.land x (2 ^ N.of_nat i)) with 0%N; auto.
    symmetry. apply N.bits_inj_0. intros n. rewrite N.land_spec, N.pow2_bits_eqb.
    destruct (N.of_nat i =? n)%N eqn:E2; [apply N.eqb_eq in E2; subst; now rewrite E|apply andb_false_r].
Qed.

Lemma byte_get_clear : forall x i j, byte_get (byte_clear x i) j = byte_get x j && negb (i =? j).
Proof.
  intros. rewrite !byte_get_testbit. unfold byte_clear. rewrite N.shiftl_1_l, N.ldiff_spec, N.pow2_bits_eqb.
  f_equal. f_equal. destruct (i =? j) eqn:E; lia.
Qed.

Lemma byte_get_set : forall x i j, byte_get (byte_set x i) j = byte_get x j || (i =? j).
Proof.
  intros. rewrite !byte_get_testbit. unfold byte_set. rewrite N.shiftl_1_l, N.lor_spec, N.pow2_bits_eqb.
  f_equal. destruct (i =? j) eqn:E; lia.
Qed.

Lemma byte_lt256 : forall x, (x < 256)%N <-> forall i, 8 <= i -> byte_get x i = false.
Proof.
  intros x. split.
  - intros H i Hi. rewrite byte_get_testbit. destruct (N.eq_dec x 0) as [->|Hx].
    + apply N.bits_0.
    + apply N.bits_above_log2. apply N.log2_lt_pow2; [lia|].
      eapply N.lt_le_trans; [exact H|]. change 256%N with (2 ^ 8)%N. apply N.pow_le_mono_r; lia.
  - intros H. destruct (N.lt_ge_cases x 256) as [|Hge]; auto.
    assert (Hx : x <> 0%N) by lia.
    assert (HL : (8 <= N.log2 x)%N) by (change 8%N with (N.log2 256); now apply N.log2_le_mono).
    specialize (H (N.to_nat (N.log2 x)) ltac:(lia)).
    rewrite byte_get_testbit, N2Nat.id, N.bit_log2 in H; [discriminate|auto].
Qed.

Lemma byte_clear_lt : forall x i, (x < 256)%N -> (byte_clear x i < 256)%N.
Proof.
  intros x i H. apply byte_lt256. intros j Hj. rewrite byte_get_clear.
  rewrite (proj1 (byte_lt256 x)); auto.
Qed.

Lemma byte_set_lt : forall x i, i < 8 -> (x < 256)%N -> (byte_set x i < 256)%N.
Proof.
  intros x i Hi H. apply byte_lt256. intros j Hj. rewrite byte_get_set.
  rewrite (proj1 (byte_lt256 x)); auto. simpl. lia.
Qed.

Lemma set_nth_length : forall {A} (l : list A) i x, length (set_nth l i x) = length l.
Proof.
  intros. unfold set_nth. rewrite app_length, firstn_length.
  destruct (skipn i l) eqn:E.
  - assert (length (skipn i l) = 0) by now rewrite E. rewrite skipn_length in H. simpl. lia.
  - assert (length (skipn i l) = S (length l0)) by now rewrite E. rewrite skipn_length in H. simpl. lia.
Qed.

Lemma set_nth_nth : forall {A} (l : list A) i x j d, i < length l ->
  nth j (set_nth l i x) d = if j =? i then x else nth j l d.
Proof.
  induction l; simpl; intros; [lia|].
  destruct i; destruct j; simpl; auto.
  change (firstn (S i) (a :: l)) with (a :: firstn i l).
  change (skipn (S i) (a :: l)) with (skipn i l). simpl.
  change (firstn i l ++ match skipn i l with [] => [] | _ :: t => x :: t end) with (set_nth l i x).
  rewrite IHl by lia. reflexivity.
Qed.

Lemma set_nth_Forall : forall {A} (P : A -> Prop) l i x, Forall P l -> P x -> Forall P (set_nth l i x).
Proof.
  intros. unfold set_nth. rewrite Forall_app. split.
  - rewrite Forall_forall in *. intros y Hy. apply H. rewrite <- (firstn_skipn i l). apply in_or_app. auto.
  - destruct (skipn i l) eqn:E; auto. constructor; auto.
    rewrite Forall_forall in *. intros y Hy. apply H. rewrite <- (firstn_skipn i l), E.
    apply in_or_app. right. now right.
Qed.

Lemma bm_get_beyond : forall b i, length (bm_data b) <= i / 8 -> bm_get b i = false.
Proof. intros. unfold bm_get. rewrite nth_overflow by auto. rewrite byte_get_testbit. apply N.bits_0. Qed.

Lemma divmod_eq : forall i j, i / 8 = j / 8 -> i mod 8 = j mod 8 -> i = j.
Proof. intros. rewrite (Nat.div_mod i 8), (Nat.div_mod j 8) by lia. congruence. Qed.

Lemma bm_get_clear : forall b i b' j, bm_clear b i = Some b' ->
  bm_get b' j = bm_get b j && negb (i =? j).
Proof.
  intros b i b' j H. unfold bm_clear in H. destruct (i / 8 <? length (bm_data b)) eqn:E; [|discriminate].
  injection H as <-. unfold bm_get. cbn [bm_data]. rewrite set_nth_nth by (now apply Nat.ltb_lt).
  destruct (j / 8 =? i / 8) eqn:E2.
  - apply Nat.eqb_eq in E2. rewrite byte_get_clear, E2. f_equal. f_equal.
    destruct (i =? j) eqn:E3.
    + apply Nat.eqb_eq in E3; subst. apply Nat.eqb_refl.
    + apply Nat.eqb_neq in E3. apply Nat.eqb_neq. intros E4. apply E3. now apply divmod_eq.
  - destruct (i =? j) eqn:E3; [|now rewrite andb_true_r].
    apply Nat.eqb_eq in E3; subst. now rewrite Nat.eqb_refl in E2.
Qed.

Lemma bm_get_set : forall b i b' j, bm_set b i = Some b' ->
  bm_get b' j = bm_get b j || (i =? j).
Proof.
  intros b i b' j H. unfold bm_set in H. destruct (i / 8 <? length (bm_data b)) eqn:E; [|discriminate].
  injection H as <-. unfold bm_get. cbn [bm_data]. rewrite set_nth_nth by (now apply Nat.ltb_lt).
  destruct (j / 8 =? i / 8) eqn:E2.
  - apply Nat.eqb_eq in E2. rewrite byte_get_set, E2. f_equal.
    destruct (i =? j) eqn:E3.
    + apply Nat.eqb_eq in E3; subst. apply Nat.eqb_refl.
    + apply Nat.eqb_neq in E3. apply Nat.eqb_neq. intros E4. apply E3. now apply divmod_eq.
  - destruct (i =? j) eqn:E3; [|now rewrite orb_false_r].
    apply Nat.eqb_eq in E3; subst. now rewrite Nat.eqb_refl in E2.
Qed.

Lemma div8_lt : forall i len, i < len -> i / 8 < (len + 7) / 8.
Proof.
  intros. apply Nat.div_lt_upper_bound; [lia|].
  assert (len + 7 < 8 * S ((len + 7) / 8)) by (apply Nat.mul_succ_div_gt; lia). lia.
Qed.

Lemma bm_wf_range : forall b i, bm_wf b -> bm_get b i = true -> i < bm_len b.
Proof.
  intros b i [_ [_ H]] Hg. destruct (Nat.lt_ge_cases i (bm_len b)); auto. rewrite H in Hg by auto. discriminate.
Qed.

Lemma bm_clear_spec : forall b i, bm_wf b -> i < bm_len b ->
  exists b', bm_clear b i = Some b' /\ bm_wf b' /\ bm_len b' = bm_len b /\
             forall j, bm_get b' j = bm_get b j && negb (i =? j).
Proof.
  intros b i Hw Hi. destruct (bm_clear b i) as [b'|] eqn:E.
  - exists b'. split; auto. assert (HG := fun j => bm_get_clear b i b' j E).
    destruct Hw as [H1 [H2 H3]]. unfold bm_clear in E.
    destruct (i / 8 <? length (bm_data b)) eqn:E1; [|discriminate]. injection E as <-.
    cbn [bm_len]. split; [|auto]. split; [|split].
    + cbn [bm_data bm_len]. now rewrite set_nth_length.
    + cbn [bm_data]. apply set_nth_Forall; auto. apply byte_clear_lt.
      rewrite Forall_forall in H2. apply H2. apply nth_In. lia.
    + cbn [bm_len]. intros j Hj. rewrite HG, H3; auto.
  - exfalso. unfold bm_clear in E. destruct Hw as [H1 _]. rewrite H1 in E.
    replace (i / 8 <? (bm_len b + 7) / 8) with true in E; [discriminate|].
    symmetry. apply Nat.ltb_lt. now apply div8_lt.
Qed.

Lemma bm_set_spec : forall b i, bm_wf b -> i < bm_len b ->
  exists b', bm_set b i = Some b' /\ bm_wf b' /\ bm_len b' = bm_len b /\
             forall j, bm_get b' j = bm_get b j || (i =? j).
Proof.
  intros b i Hw Hi. destruct (bm_set b i) as [b'|] eqn:E.
  - exists b'. split; auto. assert (HG := fun j => bm_get_set b i b' j E).
    destruct Hw as [H1 [H2 H3]]. unfold bm_set in E.
    destruct (i / 8 <? length (bm_data b)) eqn:E1; [|discriminate]. injection E as <-.
    cbn [bm_len]. split; [|auto]. split; [|split].
    + cbn [bm_data bm_len]. now rewrite set_nth_length.
    + cbn [bm_data]. apply set_nth_Forall; auto. apply byte_set_lt.
      * apply Nat.mod_upper_bound. lia.
      * rewrite Forall_forall in H2. apply H2. apply nth_In. lia.
    + cbn [bm_len]. intros j Hj. rewrite HG, H3 by auto. simpl. lia.
  - exfalso. unfold bm_set in E. destruct Hw as [H1 _]. rewrite H1 in E.
    replace (i / 8 <? (bm_len b + 7) / 8) with true in E; [discriminate|].
    symmetry. apply Nat.ltb_lt. now apply div8_lt.
Qed.

Lemma bm_clear_all_spec : forall offs b, bm_wf b -> Forall (fun o => o < bm_len b) offs ->
  exists b', bm_clear_all b offs = Some b' /\ bm_wf b' /\ bm_len b' = bm_len b /\
             forall j, bm_get b' j = bm_get b j && negb (memb j offs).
Proof.
  unfold bm_clear_all. induction offs as [|o offs IH]; intros b Hw Hf; cbn [fold_left obind].
  - exists b. repeat split; auto; try apply Hw. intros j. now rewrite andb_true_r.
  - inversion Hf as [|? ? Ho Hf']; subst.
    destruct (bm_clear_spec b o Hw Ho) as [b1 [E1 [W1 [L1 G1]]]]. rewrite E1.
    destruct (IH b1 W1) as [b2 [E2 [W2 [L2 G2]]]]; [now rewrite L1|].
    exists b2. repeat split; auto; try apply W2; [congruence|].
    intros j. rewrite G2, G1. simpl. rewrite negb_orb, (Nat.eqb_sym o j). now rewrite <- andb_assoc.
Qed.

Lemma bm_new_empty_wf : forall n, bm_wf (bm_new_empty n) /\ forall i, bm_get (bm_new_empty n) i = false.
Proof.
  intros n.
  assert (G : forall i, bm_get (bm_new_empty n) i = false).
  { intros i. unfold bm_get, bm_new_empty. cbn [bm_data].
    destruct (Nat.lt_ge_cases (i / 8) ((n + 7) / 8)).
    - rewrite nth_repeat. rewrite byte_get_testbit. apply N.bits_0.
    - rewrite nth_overflow by now rewrite repeat_length. rewrite byte_get_testbit. apply N.bits_0. }
  split; auto. split; [|split]; cbn.
  - apply repeat_length.
  - apply Forall_forall. intros x Hx. apply repeat_spec in Hx. subst. lia.
  - auto.
Qed.

Lemma fold_clear_spec : forall l x j,
  byte_get (fold_left (fun b off => byte_clear b (7 - off)) l x) j =
  byte_get x j && negb (memb j (map (fun o => 7 - o) l)).
Proof.
  induction l; intros; cbn [fold_left map memb existsb]; [now rewrite andb_true_r|].
  rewrite IHl, byte_get_clear. rewrite negb_orb, (Nat.eqb_sym (7 - a) j). now rewrite <- andb_assoc.
Qed.

Lemma fold_clear_lt : forall l x, (x < 256)%N ->
  (fold_left (fun b off => byte_clear b (7 - off)) l x < 256)%N.
Proof. induction l; simpl; auto. intros. apply IHl. now apply byte_clear_lt. Qed.

Lemma byte_get_255 : forall j, byte_get 255 j = (j <? 8).
Proof.
  intros j. do 8 (destruct j as [|j]; [reflexivity|]).
  rewrite (proj1 (byte_lt256 255)); [|lia|lia]. lia.
Qed.

Lemma bm_new_full_wf : forall n, bm_wf (bm_new_full n) /\ bm_len (bm_new_full n) = n /\
  forall i, bm_get (bm_new_full n) i = (i <? n).
Proof.
  intros n.
  assert (Hdm := Nat.div_mod n 8 ltac:(lia)).
  assert (Hm := Nat.mod_upper_bound n 8 ltac:(lia)).
  assert (HG : forall i, bm_get (bm_new_full n) i = (i <? n)).
  { intros i. assert (Hi := Nat.div_mod i 8 ltac:(lia)).
    assert (Hmi := Nat.mod_upper_bound i 8 ltac:(lia)).
    unfold bm_get, bm_new_full. cbn [bm_data].
    destruct (n mod 8 =? 0) eqn:E.
    - apply Nat.eqb_eq in E.
      assert (HL : (n + 7) / 8 = n / 8).
      { symmetry. apply Nat.div_unique with 7; lia. }
      rewrite HL. destruct (Nat.lt_ge_cases (i / 8) (n / 8)).
      + rewrite (nth_indep _ _ 255%N) by (rewrite repeat_length; lia).
        rewrite nth_repeat, byte_get_255. nia.
      + rewrite nth_overflow by (rewrite repeat_length; lia).
        rewrite byte_get_testbit, N.bits_0. nia.
    - apply Nat.eqb_neq in E.
      assert (HL : (n + 7) / 8 = S (n / 8)).
      { symmetry. apply Nat.div_unique with (n mod 8 - 1); lia. }
      rewrite HL, repeat_length. replace (S (n / 8) - 1) with (n / 8) by lia.
      rewrite set_nth_nth by (rewrite repeat_length; lia).
      destruct (i / 8 =? n / 8) eqn:E2.
      + apply Nat.eqb_eq in E2. rewrite fold_clear_spec.
        rewrite (nth_indep _ _ 255%N) by (rewrite repeat_length; lia).
        rewrite nth_repeat, byte_get_255.
        destruct (memb (i mod 8) (map (fun o => 7 - o) (seq 0 (8 - n mod 8)))) eqn:E3.
        * apply memb_In in E3. apply in_map_iff in E3. destruct E3 as [o [E4 E5]].
          apply in_seq in E5. lia.
        * apply memb_false in E3. destruct (i <? n) eqn:E4; [lia|].
          exfalso. apply E3. apply in_map_iff. exists (7 - i mod 8). split; [lia|].
          apply in_seq. lia.
      + apply Nat.eqb_neq in E2. destruct (Nat.lt_ge_cases (i / 8) (S (n / 8))).
        * rewrite (nth_indep _ _ 255%N) by (rewrite repeat_length; lia).
          rewrite nth_repeat, byte_get_255. nia.
        * rewrite nth_overflow by (rewrite repeat_length; lia).
          rewrite byte_get_testbit, N.bits_0. nia. }
  split; [|split]; auto. split; [|split].
  - unfold bm_new_full. cbn [bm_data bm_len].
    destruct (n mod 8 =? 0); [apply repeat_length|rewrite set_nth_length; apply repeat_length].
  - unfold bm_new_full. cbn [bm_data].
    assert (F : Forall (fun x => (x < 256)%N) (repeat 255%N ((n + 7) / 8))).
    { apply Forall_forall. intros x Hx. apply repeat_spec in Hx. subst. lia. }
    destruct (n mod 8 =? 0) eqn:E; auto. apply set_nth_Forall; auto.
    apply fold_clear_lt. destruct (nth_in_or_default (length (repeat 255%N ((n + 7) / 8)) - 1) (repeat 255%N ((n + 7) / 8)) 0%N) as [H|H].
    + apply repeat_spec in H. rewrite H. lia.
    + rewrite H. lia.
  - change (bm_len (bm_new_full n)) with n. intros i Hi. rewrite HG. lia.
Qed.

(** Counting *)
Definition cnt (b : bitmap) (st ln : nat) : nat := length (filter (bm_get b) (seq st ln)).

Lemma cnt_app : forall b st n m, cnt b st (n + m) = cnt b st n + cnt b (st + n) m.
Proof. intros. unfold cnt. now rewrite seq_app, filter_app, app_length. Qed.

Lemma seq_shift_add : forall n k a, seq (k + a) n = map (fun i => k + i) (seq a n).
Proof. induction n; simpl; intros; auto. f_equal. rewrite <- IHn. f_equal. lia. Qed.

Lemma filter_map_length : forall {A B} (f : B -> bool) (g : A -> B) l,
  length (filter f (map g l)) = length (filter (fun x => f (g x)) l).
Proof. induction l; simpl; auto. destruct (f (g a)); simpl; auto. Qed.

Lemma cnt_byte : forall b k lo n, lo + n <= 8 ->
  cnt b (8 * k + lo) n = length (filter (fun i => byte_get (nth k (bm_data b) 0%N) i) (seq lo n)).
Proof.
  intros. unfold cnt. rewrite seq_shift_add, filter_map_length. f_equal.
  apply filter_ext_in'. intros i Hi. apply in_seq in Hi. unfold bm_get.
  replace ((8 * k + i) / 8) with k by (apply Nat.div_unique with i; lia).
  replace ((8 * k + i) mod 8) with i by (apply Nat.mod_unique with k; lia). reflexivity.
Qed.

Lemma cnt_bytes : forall m b k, k + m <= length (bm_data b) ->
  cnt b (8 * k) (8 * m) = sumn (map popcount8 (firstn m (skipn k (bm_data b)))).
Proof.
  induction m; intros b k H; [reflexivity|].
  replace (8 * S m) with (8 + 8 * m) by lia. rewrite cnt_app.
  replace (8 * k + 8) with (8 * S k) by lia. rewrite IHm by lia.
  replace (8 * k) with (8 * k + 0) by lia. rewrite cnt_byte by lia.
  replace (skipn k (bm_data b)) with (nth k (bm_data b) 0%N :: skipn (S k) (bm_data b)); [reflexivity|].
  clear IHm. revert k H. generalize (bm_data b). induction l; simpl; intros; [lia|].
  destruct k; auto. simpl. rewrite <- IHl; [reflexivity|lia].
Qed.

Lemma bms_count_ones_spec : forall b st ln, st + ln <= 8 * length (bm_data b) ->
  bms_count_ones b st ln = cnt b st ln.
Proof.
  intros b st ln H. unfold bms_count_ones. destruct (ln =? 0) eqn:E0.
  - apply Nat.eqb_eq in E0. subst. reflexivity.
  - apply Nat.eqb_neq in E0. cbv zeta.
    assert (Hs := Nat.div_mod st 8 ltac:(lia)).
    assert (Hms := Nat.mod_upper_bound st 8 ltac:(lia)).
    set (e := st + ln - 1) in *.
    assert (He := Nat.div_mod e 8 ltac:(lia)).
    assert (Hme := Nat.mod_upper_bound e 8 ltac:(lia)).
    destruct (st / 8 =? e / 8) eqn:E1.
    + apply Nat.eqb_eq in E1. rewrite <- cnt_byte by lia. f_equal; lia.
    + apply Nat.eqb_neq in E1. assert (st / 8 < e / 8).
      { assert (st / 8 <= e / 8) by (apply Nat.div_le_mono; lia). lia. }
      rewrite <- (cnt_byte b (st / 8)) by lia.
      rewrite <- (cnt_byte b (e / 8)) by lia.
      rewrite <- cnt_bytes by lia.
      replace ln with ((8 - st mod 8) + (8 * (e / 8 - (st / 8 + 1)) + (e mod 8 + 1))) by lia.
      replace (e mod 8 + 1 - 0) with (e mod 8 + 1) by lia. rewrite (cnt_app b st (8 - st mod 8)), (cnt_app b (st + (8 - st mod 8))). 
      replace (8 * (st / 8) + st mod 8) with st by lia.
      replace (8 * (e / 8) + 0) with (st + (8 - st mod 8) + 8 * (e / 8 - (st / 8 + 1))) by lia.
      replace (8 * (st / 8 + 1)) with (st + (8 - st mod 8)) by lia.
      lia.
Qed.

Lemma cnt_zero : forall b st n, (forall i, st <= i -> bm_get b i = false) -> cnt b st n = 0.
Proof.
  intros. unfold cnt. rewrite filter_all_false; auto. intros x Hx. apply in_seq in Hx. apply H. lia.
Qed.

Lemma bm_len_bytes : forall b, bm_wf b -> bm_len b <= 8 * length (bm_data b).
Proof.
  intros b [H _]. rewrite H.
  assert (bm_len b + 7 < 8 * S ((bm_len b + 7) / 8)) by (apply Nat.mul_succ_div_gt; lia). lia.
Qed.

Lemma bm_count_ones_spec : forall b, bm_wf b -> bm_count_ones b = cnt b 0 (bm_len b).
Proof.
  intros b Hw. assert (HL := bm_len_bytes b Hw). destruct Hw as [H1 [_ H3]]. unfold bm_count_ones.
  rewrite <- (firstn_all (bm_data b)) at 1. change (bm_data b) with (skipn 0 (bm_data b)) at 2.
  rewrite <- cnt_bytes by lia. change (8 * 0) with 0.
  replace (8 * length (bm_data b)) with (bm_len b + (8 * length (bm_data b) - bm_len b)) by lia.
  rewrite cnt_app, (cnt_zero b (0 + bm_len b)) by auto. lia.
Qed.

Lemma cnt_le : forall b st n, cnt b st n <= n.
Proof.
  intros. unfold cnt. rewrite <- (seq_length n st) at 2.
  generalize (filter_length_split (bm_get b) (seq st n)). lia.
Qed.

Lemma bm_from_slice_spec : forall b st ln, exists nb, bm_from_slice b st ln = Some nb /\ bm_wf nb /\
  bm_len nb = ln /\ forall j, bm_get nb j = (j <? ln) && bm_get b (st + j).
Proof.
  intros b st ln. unfold bm_from_slice.
  assert (G : forall k, k <= ln -> exists nb,
     fold_left (fun acc i => obind acc (fun nb => if bm_get b (st + i) then bm_set nb i else Some nb))
        (seq 0 k) (Some (bm_new_empty ln)) = Some nb /\ bm_wf nb /\ bm_len nb = ln /\
        forall j, bm_get nb j = (j <? k) && bm_get b (st + j)).
  { induction k; intros Hk.
    - exists (bm_new_empty ln). destruct (bm_new_empty_wf ln) as [W G].
      split; [reflexivity|split; [exact W|split; [reflexivity|]]].
      intros j. rewrite G. reflexivity.
    - destruct IHk as [nb [E [W [L G]]]]; [lia|].
      rewrite seq_S, fold_left_app, E. cbn [fold_left obind].
      replace (0 + k) with k by lia.
      destruct (bm_get b (st + k)) eqn:Ek.
      + destruct (bm_set_spec nb k W) as [nb' [E' [W' [L' G']]]]; [lia|].
        exists nb'. repeat split; auto; try apply W'; [congruence|].
        intros j. rewrite G', G. destruct (k =? j) eqn:Ekj.
        * apply Nat.eqb_eq in Ekj. subst. rewrite Ek. destruct (j <? j); destruct (j <? S j) eqn:?; simpl; auto; lia.
        * rewrite orb_false_r. f_equal. lia.
      + exists nb. repeat split; auto; try apply W. intros j. rewrite G.
        destruct (j =? k) eqn:Ekj.
        * apply Nat.eqb_eq in Ekj. subst. rewrite Ek. now rewrite !andb_false_r.
        * f_equal. lia. }
  apply G. auto.
Qed.
