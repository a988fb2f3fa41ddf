(* Control words and what the full-zip layout writes. *)
From Coq Require Import List Arith NArith Bool Lia.
From Verif Require Import Lib SerdeModel SerdeProofs RepDefModel RepDefProofs FullZipModel.
Import ListNotations.
Local Open Scope nat_scope.

(* ---- bits ---- *)
Lemma table_ok : forall x, (x < 256)%N -> nth (N.to_nat x) log_table 0%N = N.size x.
Proof.
  assert (Q : forallb (fun i => (nth i log_table 0 =? N.size (N.of_nat i))%N) (seq 0 256) = true) by (vm_compute; reflexivity).
  intros x H. rewrite forallb_forall in Q. specialize (Q (N.to_nat x) ltac:(apply in_seq; lia)). apply N.eqb_eq in Q. rewrite Q. f_equal. lia.
Qed.
Lemma size_shift : forall v k, N.shiftr v k <> 0%N -> N.size v = (N.size (N.shiftr v k) + k)%N.
Proof.
  intros v k H. assert (V : v <> 0%N) by (intros ->; apply H; apply N.shiftr_0_l). rewrite !N.size_log2, N.log2_shiftr by auto.
  assert (k <= N.log2 v)%N; [|lia]. destruct (N.le_gt_cases k (N.log2 v)) as [|G]; auto. exfalso. apply H. apply N.shiftr_eq_0. exact G.
Qed.
Lemma shiftr_small : forall v a b, (v < 2 ^ (a + b))%N -> (N.shiftr v a < 2 ^ b)%N.
Proof. intros v a b H. rewrite N.shiftr_div_pow2. apply N.div_lt_upper_bound; [apply N.pow_nonzero; lia|]. rewrite <- N.pow_add_r. exact H. Qed.
Theorem log_2_ceil_size : forall v, (v < 2 ^ 32)%N -> log_2_ceil v = N.size v.
Proof.
  intros v H. unfold log_2_ceil. cbv zeta. destruct (N.eqb_spec (N.shiftr v 16) 0) as [U|U].
  - assert (V : (v < 2 ^ 16)%N) by (rewrite N.shiftr_div_pow2 in U; apply N.div_small_iff in U; [exact U|lia]).
    destruct (N.eqb_spec (N.shiftr v 8) 0) as [T|T].
    + apply table_ok. rewrite N.shiftr_div_pow2 in T. apply N.div_small_iff in T; [exact T|lia].
    + rewrite (size_shift v 8 T). f_equal. apply table_ok. apply (shiftr_small v 8 8). exact V.
  - assert (V : (N.shiftr v 16 < 2 ^ 16)%N) by (apply (shiftr_small v 16 16); exact H).
    destruct (N.eqb_spec (N.shiftr (N.shiftr v 16) 8) 0) as [T|T].
    + rewrite (size_shift v 16 U), N.add_comm. f_equal. apply table_ok. rewrite N.shiftr_div_pow2 in T. apply N.div_small_iff in T; [exact T|lia].
    + rewrite N.shiftr_shiftr in T |- *. rewrite (size_shift v (16 + 8) T). change (16 + 8)%N with 24%N in *. rewrite N.add_comm. f_equal. apply table_ok. apply (shiftr_small v 24 8). exact H.
Qed.
Lemma width_size : forall m, (m < 32768)%N -> rd_width m = N.size m.
Proof. intros m H. unfold rd_width. destruct (N.eqb_spec m 0) as [->|]; [reflexivity|]. apply log_2_ceil_size. eapply N.lt_trans; [exact H|reflexivity]. Qed.
Lemma size_le : forall m k, (m < 2 ^ k)%N -> (N.size m <= k)%N.
Proof. intros m k H. destruct (N.eq_dec m 0) as [->|Z]; [apply N.le_0_l|]. rewrite N.size_log2 by exact Z. apply N.le_succ_l. apply N.log2_lt_pow2; lia. Qed.
Lemma size_gt_le : forall x m, (x <= m)%N -> (x < 2 ^ N.size m)%N.
Proof. intros x m H. eapply N.le_lt_trans; [exact H|]. apply N.size_gt. Qed.
Lemma size_pos : forall m, (0 < m)%N -> (0 < N.size m)%N.
Proof. intros m H. rewrite N.size_log2 by lia. lia. Qed.
Lemma mask_ones : forall w, (w < 16)%N -> get_mask w = N.ones w.
Proof. intros w H. unfold get_mask. rewrite N.mod_small by exact H. rewrite N.ones_equiv, N.pred_sub. reflexivity. Qed.
Lemma rd_mask_id : forall x m, (m < 32768)%N -> (x <= m)%N -> N.land x (rd_mask m) = x.
Proof.
  intros x m M X. unfold rd_mask. destruct (N.eqb_spec m 0) as [->|Z]; [rewrite N.land_0_r; lia|]. rewrite width_size by exact M. rewrite mask_ones by (assert (Q : (N.size m <= 15)%N) by (apply size_le; exact M); lia).
  rewrite N.land_ones. apply N.mod_small. apply size_gt_le. exact X.
Qed.
Lemma trunc_id : forall k x, (x < 2 ^ (8 * N.of_nat k))%N -> trunc k x = x.
Proof. intros k x H. apply N.mod_small. exact H. Qed.
Lemma pow256 : forall k, (256 ^ N.of_nat k = 2 ^ (8 * N.of_nat k))%N.
Proof. intros k. change 256%N with (2 ^ 8)%N. rewrite <- N.pow_mul_r. reflexivity. Qed.
Lemma word_fits : forall t, (t <= 30)%N -> (t <= 8 * N.of_nat (word_size t))%N.
Proof. intros t H. unfold word_size. destruct (N.leb_spec t 8), (N.leb_spec t 16); cbn; lia. Qed.
Lemma small_pow : forall x a b, (x < 2 ^ a)%N -> (a <= b)%N -> (x < 2 ^ b)%N.
Proof. intros x a b H L. eapply N.lt_le_trans; [exact H|]. apply N.pow_le_mono_r; lia. Qed.

(* ---- one control word ---- *)
Lemma both_word : forall k r d mr md mv, (mr < 32768)%N -> (md < 32768)%N -> (0 < mr)%N -> (r <= mr)%N -> (d <= md)%N -> k = word_size (rd_width mr + rd_width md) ->
  fst (binary_next k (rd_width md) mr mv (rd_mask mr) (rd_mask md) (r, d)) = le_bytes k (r * 2 ^ rd_width md + d) /\
  (r * 2 ^ rd_width md + d < 2 ^ (8 * N.of_nat k))%N.
Proof.
  intros k r d mr md mv MR MD PR R D K. cbn [binary_next fst snd]. rewrite !rd_mask_id by assumption. rewrite !width_size in * by assumption.
  assert (SR : (0 < N.size mr <= 15)%N) by (split; [apply size_pos; exact PR|apply size_le; exact MR]). assert (SD : (N.size md <= 15)%N) by (apply size_le; exact MD).
  assert (F : (N.size mr + N.size md <= 8 * N.of_nat k)%N) by (subst k; apply word_fits; lia).
  assert (RR := size_gt_le r mr R). assert (DD := size_gt_le d md D).
  assert (B : (r * 2 ^ N.size md + d < 2 ^ (8 * N.of_nat k))%N).
  { apply small_pow with (a := (N.size mr + N.size md)%N); [|exact F]. rewrite N.pow_add_r. nia. }
  split; [|exact B]. f_equal. rewrite (trunc_id k r) by (apply (small_pow _ _ _ RR); lia). rewrite (trunc_id k d) by (apply (small_pow _ _ _ DD); lia). rewrite (N.mod_small (N.size md)) by lia. rewrite N.shiftl_mul_pow2. rewrite trunc_id; [reflexivity|]. lia.
Qed.
Lemma both_parts : forall r d w, (d < 2 ^ w)%N -> N.shiftr (r * 2 ^ w + d) w = r /\ N.land (r * 2 ^ w + d) (N.ones w) = d.
Proof.
  intros r d w D. assert (Z : (2 ^ w <> 0)%N) by (apply N.pow_nonzero; lia). rewrite N.shiftr_div_pow2, N.land_ones. split.
  - rewrite N.div_add_l by exact Z. rewrite N.div_small by exact D. lia.
  - rewrite N.add_comm, N.mod_add by exact Z. apply N.mod_small. exact D.
Qed.
Lemma front_le : forall p x rest, (x < 2 ^ (8 * N.of_nat (p_bytes p)))%N -> front_word p (le_bytes (p_bytes p) x ++ rest) = Some x.
Proof.
  intros p x rest H. unfold front_word. rewrite app_length, le_bytes_length. rewrite (proj2 (Nat.ltb_ge _ _)) by lia. rewrite firstn_app, le_bytes_length, Nat.sub_diag, firstn_O, app_nil_r, firstn_all2 by (rewrite le_bytes_length; lia). rewrite of_le_bytes_le; [reflexivity|]. rewrite pow256. exact H.
Qed.

(* ---- items ---- *)
(* an item of a page: its levels and its value, which is missing for null and empty lists *)
Record item := { i_rep : nat; i_def : nat; i_val : option (list N) }.
(* the definition levels of the layers below the first list *)
Fixpoint inner_levels (ms : list meaning) : nat := match ms with [] => 0 | m :: t => if m_list m then 0 else num_def_levels m + inner_levels t end.
Definition lists (ms : list meaning) : nat := length (filter m_list ms).
(* what the iterator makes of an item; [hr] and [hd] tell which levels there are, [mr] and [md] are their greatest *)
Definition word_of (hr hd : bool) (mr md : nat) (mv : N) (it : item) : list N * desc :=
  let MR := N.of_nat mr in let MD := N.of_nat md in
  let k := word_size (rd_width MR + rd_width MD) in
  match hr, hd with
  | true, true => binary_next k (rd_width MD) MR mv (rd_mask MR) (rd_mask MD) (N.of_nat (i_rep it), N.of_nat (i_def it))
  | true, false => unary_next k (rd_mask MR) 0%N MR (N.of_nat (i_rep it))
  | false, true => unary_next k (rd_mask MD) (rd_width MR + rd_width MD) 0%N (N.of_nat (i_def it))
  | false, false => ([], {| d_new := true; d_vis := true; d_valid := true |})
  end.
Definition parser_of (hr hd : bool) (mr md : nat) : parser := new_parser (rd_width (N.of_nat mr)) (rd_width (N.of_nat md)).
(* which greatest levels can occur: an iterator of two bytes for one level panics, one for no null keeps no bits *)
Definition levels_ok (hr hd : bool) (mr md : nat) : Prop :=
  (N.of_nat mr < 32768)%N /\ (N.of_nat md < 32768)%N /\ (if hr then 0 < mr else mr = 0) /\ (if hd then True else md = 0) /\ (hr = true -> hd = false -> mr < 256) /\ (hr = false -> hd = true -> 0 < md < 256).
Lemma word_read : forall hr hd mr md mv it, levels_ok hr hd mr md -> i_rep it <= mr -> i_def it <= md ->
  let p := parser_of hr hd mr md in let w := word_of hr hd mr md mv it in
  (forall rest, parse p (fst w ++ rest) = Some (if hr then [i_rep it] else [], if 0 <? md then [i_def it] else [])) /\
  (forall rest mv', (i_def it <=? N.to_nat mv') = (i_def it <=? N.to_nat mv) -> parse_desc p (fst w ++ rest) (N.of_nat mr) mv' = Some (snd w)) /\
  length (fst w) = p_bytes p /\ d_new (snd w) = (if hr then i_rep it =? mr else true) /\ d_vis (snd w) = (if hr && hd then i_def it <=? N.to_nat mv else true) /\
  d_valid (snd w) = (i_def it =? 0).
Proof.
  intros hr hd mr md mv it (MR & MD & PR & PD & ONE & TWO) R D p w.
  rename MR into LR. rename MD into LD.
  assert (WR := width_size _ LR). assert (WD := width_size _ LD).
  assert (SR : (N.size (N.of_nat mr) <= 15)%N) by (apply size_le; exact LR). assert (SD : (N.size (N.of_nat md) <= 15)%N) by (apply size_le; exact LD).
  assert (GR := size_gt_le (N.of_nat (i_rep it)) (N.of_nat mr) ltac:(lia)). assert (GD := size_gt_le (N.of_nat (i_def it)) (N.of_nat md) ltac:(lia)).
  assert (T16 : forall x y, (y <= 15)%N -> (x < 2 ^ y)%N -> trunc 2 x = x) by (intros x y Y X; apply trunc_id; apply (small_pow _ _ _ X); cbn; lia).
  assert (EP : forall a b, (N.of_nat a =? N.of_nat b)%N = (a =? b)) by (intros a b; destruct (Nat.eqb_spec a b) as [->|]; [apply N.eqb_refl|apply N.eqb_neq; lia]).
  assert (EL : forall a (b : N), (N.of_nat a <=? b)%N = (a <=? N.to_nat b)) by (intros a b; destruct (Nat.leb_spec a (N.to_nat b)); [apply N.leb_le|apply N.leb_gt]; lia).
  assert (PM : (0 <? rd_width (N.of_nat md))%N = (0 <? md)).
  { rewrite WD. destruct (Nat.ltb_spec 0 md) as [Q|Q]; [apply N.ltb_lt; apply size_pos; lia|]. replace md with 0 by lia. reflexivity. }
  destruct hr.
  - assert (SP : (0 < N.size (N.of_nat mr))%N) by (apply size_pos; lia). assert (PRB : (0 <? rd_width (N.of_nat mr))%N = true) by (rewrite WR; apply N.ltb_lt; exact SP).
    destruct hd.
    + destruct (both_word _ (N.of_nat (i_rep it)) (N.of_nat (i_def it)) (N.of_nat mr) (N.of_nat md) mv LR LD ltac:(lia) ltac:(lia) ltac:(lia) eq_refl) as [W1 W2].
      assert (PB : p_bytes p = word_size (rd_width (N.of_nat mr) + rd_width (N.of_nat md))) by (subst p; unfold parser_of, new_parser; cbn [p_bytes]; rewrite PRB; reflexivity).
      assert (FW : forall rest, front_word p (fst w ++ rest) = Some (N.of_nat (i_rep it) * 2 ^ rd_width (N.of_nat md) + N.of_nat (i_def it))%N).
      { intros rest. subst w. cbn [word_of]. rewrite W1, <- PB. apply front_le. rewrite PB. exact W2. }
      assert (RP : word_rep p (N.of_nat (i_rep it) * 2 ^ rd_width (N.of_nat md) + N.of_nat (i_def it)) = N.of_nat (i_rep it)).
      { unfold word_rep. subst p. unfold parser_of, new_parser. cbn [p_def p_shift]. destruct (N.ltb_spec 0 (rd_width (N.of_nat md))) as [Q|Q].
        - rewrite (proj1 (both_parts _ _ (rd_width (N.of_nat md)) ltac:(rewrite WD; exact GD))). apply (T16 _ _ SR GR).
        - rewrite WD in *. assert (Z : N.size (N.of_nat md) = 0%N) by lia. rewrite Z in *. cbn in GD. assert (i_def it = 0) by lia. rewrite H. cbn [N.of_nat]. rewrite N.add_0_r. change (2 ^ 0)%N with 1%N. rewrite N.mul_1_r. apply (T16 _ _ SR GR). }
      assert (DP : word_def p (N.of_nat (i_rep it) * 2 ^ rd_width (N.of_nat md) + N.of_nat (i_def it)) = N.of_nat (i_def it)).
      { unfold word_def. subst p. unfold parser_of, new_parser. cbn [p_rep p_mask p_bytes]. rewrite PRB. cbn [orb]. rewrite mask_ones by (rewrite WD; lia). rewrite (trunc_id (word_size _) (N.ones _)).
        - rewrite (proj2 (both_parts _ _ (rd_width (N.of_nat md)) ltac:(rewrite WD; exact GD))). apply (T16 _ _ SD GD).
        - rewrite N.ones_equiv. assert (F := word_fits (rd_width (N.of_nat mr) + rd_width (N.of_nat md)) ltac:(rewrite WR, WD; lia)). assert (0 < 2 ^ rd_width (N.of_nat md))%N by (apply N.neq_0_lt_0; apply N.pow_nonzero; lia).
          apply N.lt_le_trans with (2 ^ rd_width (N.of_nat md))%N; [lia|]. apply N.pow_le_mono_r; lia. }
      assert (PR' : p_rep p = true) by exact PRB. assert (PD' : p_def p = (0 <? md)) by exact PM.
      split; [|split; [|split; [|split; [|split]]]].
      * intros rest. unfold parse. rewrite FW. cbn [omap]. rewrite RP, DP, PR', PD', !Nnat.Nat2N.id. reflexivity.
      * intros rest mv' V. unfold parse_desc. rewrite FW. cbn [omap]. rewrite RP, DP, PR', PD'. subst w. cbn [word_of binary_next snd fst]. rewrite EP. rewrite !EL, V. f_equal. f_equal.
        -- destruct (Nat.ltb_spec 0 md); [reflexivity|]. cbn [andb]. replace (i_def it) with 0 by lia. reflexivity.
        -- destruct (Nat.ltb_spec 0 md); [reflexivity|]. replace (i_def it) with 0 by lia. reflexivity.
      * subst w. cbn [word_of]. rewrite W1, le_bytes_length, PB. reflexivity.
      * subst w. cbn [word_of binary_next snd fst d_new]. apply EP.
      * subst w. cbn [word_of binary_next snd fst d_vis andb]. apply EL.
      * subst w. cbn [word_of binary_next snd fst d_valid]. apply (EP _ 0).
    + subst md. assert (i_def it = 0) as Z by lia. rewrite Z in *. specialize (ONE eq_refl eq_refl).
      assert (K1 : word_size (rd_width (N.of_nat mr) + rd_width (N.of_nat 0)) = 1).
      { assert (Q : (N.size (N.of_nat mr) <= 8)%N) by (apply size_le; change (2 ^ 8)%N with 256%N; lia). rewrite WR, WD. unfold word_size. cbn [N.of_nat N.size]. rewrite N.add_0_r. rewrite (proj2 (N.leb_le _ _) Q). reflexivity. }
      assert (PB : p_bytes p = 1) by (subst p; unfold parser_of, new_parser; cbn [p_bytes]; rewrite PRB; exact K1).
      assert (T1 : trunc 1 (N.of_nat (i_rep it)) = N.of_nat (i_rep it)) by (apply trunc_id; change (2 ^ (8 * N.of_nat 1))%N with 256%N; lia).
      assert (W1 : fst w = le_bytes 1 (N.of_nat (i_rep it))) by (subst w; cbn [word_of]; rewrite K1; cbn [unary_next fst]; rewrite rd_mask_id, T1 by lia; reflexivity).
      assert (FW : forall rest, front_word p (fst w ++ rest) = Some (N.of_nat (i_rep it))).
      { intros rest. rewrite W1. rewrite <- PB at 1. apply front_le. rewrite PB. change (2 ^ (8 * N.of_nat 1))%N with 256%N. lia. }
      assert (PR' : p_rep p = true) by exact PRB. assert (PD' : p_def p = false) by reflexivity.
      assert (RP : word_rep p (N.of_nat (i_rep it)) = N.of_nat (i_rep it)) by (unfold word_rep; rewrite PD'; apply (T16 _ _ SR GR)).
      assert (SW : snd w = {| d_new := (i_rep it =? mr); d_vis := true; d_valid := true |}).
      { subst w. cbn [word_of]. rewrite K1. cbn [unary_next snd Nat.eqb]. rewrite EP. change 0%N with (N.of_nat 0). rewrite EP. destruct (Nat.eqb_spec mr 0); [lia|]. cbn [orb]. rewrite orb_true_r. reflexivity. }
      split; [|split; [|split; [|split; [|split]]]].
      * intros rest. unfold parse. rewrite FW. cbn [omap]. rewrite RP, PR', PD', Nnat.Nat2N.id. reflexivity.
      * intros rest mv' _. unfold parse_desc. rewrite FW. cbn [omap]. rewrite RP, PR', PD', SW, EP. reflexivity.
      * rewrite W1, le_bytes_length, PB. reflexivity.
      * rewrite SW. reflexivity.
      * rewrite SW. reflexivity.
      * rewrite SW. reflexivity.
  - subst mr. assert (i_rep it = 0) as Z by lia. rewrite Z in *.
    destruct hd.
    + destruct (TWO eq_refl eq_refl) as [P1 P2].
      assert (K1 : word_size (rd_width (N.of_nat 0) + rd_width (N.of_nat md)) = 1).
      { assert (Q : (N.size (N.of_nat md) <= 8)%N) by (apply size_le; change (2 ^ 8)%N with 256%N; lia). rewrite WR, WD. unfold word_size. cbn [N.of_nat N.size]. rewrite N.add_0_l. rewrite (proj2 (N.leb_le _ _) Q). reflexivity. }
      assert (PDB : (0 <? rd_width (N.of_nat md))%N = true) by (rewrite PM; apply Nat.ltb_lt; exact P1).
      assert (PB : p_bytes p = 1) by (subst p; unfold parser_of, new_parser; cbn [p_bytes]; rewrite PDB; exact K1).
      assert (T1 : trunc 1 (N.of_nat (i_def it)) = N.of_nat (i_def it)) by (apply trunc_id; change (2 ^ (8 * N.of_nat 1))%N with 256%N; lia).
      assert (W1 : fst w = le_bytes 1 (N.of_nat (i_def it))) by (subst w; cbn [word_of]; rewrite K1; cbn [unary_next fst]; rewrite rd_mask_id, T1 by lia; reflexivity).
      assert (FW : forall rest, front_word p (fst w ++ rest) = Some (N.of_nat (i_def it))).
      { intros rest. rewrite W1. rewrite <- PB at 1. apply front_le. rewrite PB. change (2 ^ (8 * N.of_nat 1))%N with 256%N. lia. }
      assert (PR' : p_rep p = false) by reflexivity. assert (PD' : p_def p = true) by exact PDB.
      assert (DP : word_def p (N.of_nat (i_def it)) = N.of_nat (i_def it)) by (unfold word_def; rewrite PR'; apply (T16 _ _ SD GD)).
      assert (SW : snd w = {| d_new := true; d_vis := true; d_valid := (i_def it =? 0) |}).
      { subst w. cbn [word_of]. rewrite K1. cbn [unary_next snd Nat.eqb orb N.eqb]. change 0%N with (N.of_nat 0) at 1. rewrite EP. replace (rd_width (N.of_nat 0) + rd_width (N.of_nat md) =? 0)%N with false; [now rewrite orb_false_r|]. symmetry. apply N.eqb_neq. apply N.ltb_lt in PDB. cbn [N.of_nat rd_width N.eqb] in *. lia. }
      assert (LT : (0 <? md) = true) by (apply Nat.ltb_lt; exact P1).
      split; [|split; [|split; [|split; [|split]]]].
      * intros rest. unfold parse. rewrite FW. cbn [omap]. rewrite DP, PR', PD', Nnat.Nat2N.id, LT. reflexivity.
      * intros rest mv' _. unfold parse_desc. rewrite FW. cbn [omap]. rewrite DP, PR', PD', SW. change 0%N with (N.of_nat 0). rewrite EP. reflexivity.
      * rewrite W1, le_bytes_length, PB. reflexivity.
      * rewrite SW. reflexivity.
      * rewrite SW. reflexivity.
      * rewrite SW. reflexivity.
    + subst md. assert (i_def it = 0) as Y by lia. rewrite Y. repeat split.
Qed.

(* ---- what is written ---- *)
Definition vals_of (it : item) : list (list N) := match i_val it with Some v => [v] | None => [] end.
Section Write.
Context (wd : item -> list N * desc) (enc : desc -> list N -> list N).
(* the bytes of an item *)
Definition bytes_of (it : item) : list N := fst (wd it) ++ match i_val it with Some v => enc (snd (wd it)) v | None => [] end.
Definition shown (it : item) : Prop := d_vis (snd (wd it)) = is_some (i_val it).
Definition starts_row (row : list item) : Prop := match row with it :: t => d_new (snd (wd it)) = true /\ Forall (fun x => d_new (snd (wd x)) = false) t | [] => False end.
(* where rows start, and the end *)
Fixpoint row_starts (off : nat) (rows : list (list item)) : list nat := match rows with [] => [off] | r :: t => off :: row_starts (off + length (flat_map bytes_of r)) t end.
Lemma zip_items : forall l ws vals off, Forall shown l -> Forall (fun x => d_new (snd (wd x)) = false) l ->
  zip_words enc (map wd l ++ ws) (flat_map vals_of l ++ vals) off = omap (fun '(bs, idx) => (flat_map bytes_of l ++ bs, idx)) (zip_words enc ws vals (off + length (flat_map bytes_of l))).
Proof.
  induction l as [|it l IH]; intros ws vals off S W.
  - cbn [map flat_map app length]. rewrite Nat.add_0_r. destruct (zip_words enc ws vals off) as [[bs idx]|]; reflexivity.
  - inversion S as [|? ? S1 S2]; inversion W as [|? ? W1 W2]; subst. unfold shown in S1. cbn [map flat_map app length]. destruct (wd it) as [w d] eqn:E. cbn [snd] in *. cbn [zip_words]. rewrite S1, W1. assert (EB : bytes_of it = w ++ match i_val it with Some v => enc d v | None => [] end) by (unfold bytes_of; rewrite E; reflexivity). assert (EV : vals_of it = match i_val it with Some v => [v] | None => [] end) by reflexivity. rewrite EB, EV.
    destruct (i_val it) as [v|]; cbn [is_some app obind].
    + rewrite IH by assumption. rewrite !app_length, !Nat.add_assoc. destruct (zip_words enc ws vals _) as [[bs idx]|]; cbn [omap]; [|reflexivity]. rewrite <- !app_assoc. reflexivity.
    + rewrite IH by assumption. rewrite !app_length, !Nat.add_assoc. cbn [length]. destruct (zip_words enc ws vals _) as [[bs idx]|]; cbn [omap]; [|reflexivity]. rewrite <- !app_assoc. reflexivity.
Qed.
Lemma zip_rows : forall rows off, Forall starts_row rows -> Forall shown (concat rows) ->
  zip_words enc (map wd (concat rows)) (flat_map vals_of (concat rows)) off = Some (flat_map bytes_of (concat rows), row_starts off rows).
Proof.
  induction rows as [|r rows IH]; intros off R S; [reflexivity|]. inversion R as [|? ? R1 R2]; subst. cbn [concat row_starts] in *. destruct r as [|it t]; [destruct R1|]. destruct R1 as [R1 Rt].
  apply Forall_app in S as [S1 S2]. inversion S1 as [|? ? S3 S4]; subst. cbn [app map flat_map]. unfold shown in S3. destruct (wd it) as [w d] eqn:E. cbn [snd] in *. cbn [zip_words]. rewrite S3, R1.
  rewrite map_app, flat_map_app. assert (EB : bytes_of it = w ++ match i_val it with Some v => enc d v | None => [] end) by (unfold bytes_of; rewrite E; reflexivity). assert (EV : vals_of it = match i_val it with Some v => [v] | None => [] end) by reflexivity. rewrite EB, EV. rewrite flat_map_app.
  destruct (i_val it) as [v|]; cbn [is_some app obind]; rewrite zip_items by assumption; rewrite IH by assumption; cbn [omap]; rewrite ?app_length, <- ?app_assoc; cbn [length app]; rewrite ?Nat.add_assoc, ?Nat.add_0_r; reflexivity.
Qed.
Lemma row_starts_length : forall rows off, length (row_starts off rows) = S (length rows).
Proof. induction rows as [|r rows IH]; intros off; [reflexivity|]. cbn [row_starts length]. now rewrite IH. Qed.
Lemma row_starts_nth : forall rows off j, j <= length rows -> nth_error (row_starts off rows) j = Some (off + length (flat_map bytes_of (concat (firstn j rows)))).
Proof.
  induction rows as [|r rows IH]; intros off [|j] L; cbn [length] in L; try lia; [cbn; now rewrite Nat.add_0_r| |].
  - cbn [row_starts nth_error firstn concat flat_map length]. now rewrite Nat.add_0_r.
  - cbn [row_starts nth_error firstn concat]. rewrite IH by lia. rewrite flat_map_app, app_length, Nat.add_assoc. reflexivity.
Qed.
Lemma row_starts_max : forall rows off, Forall (fun x => x <= off + length (flat_map bytes_of (concat rows))) (row_starts off rows).
Proof.
  induction rows as [|r rows IH]; intros off; cbn [row_starts concat]; [constructor; [lia|constructor]|]. constructor; [lia|]. eapply Forall_impl; [|apply IH]. intros x. cbn beta. rewrite flat_map_app, app_length. lia.
Qed.
End Write.

(* ---- byte ranges ---- *)
Lemma sub_mid : forall a b c : list N, sub (length a) (length a + length b) (a ++ b ++ c) = Some b.
Proof.
  intros a b c. unfold sub. rewrite !app_length. rewrite (proj2 (Nat.leb_le _ _)) by lia. rewrite (proj2 (Nat.leb_le _ _)) by lia. cbn [andb]. f_equal.
  rewrite skipn_app, skipn_all2, Nat.sub_diag by lia. cbn [skipn app]. replace (length a + length b - length a) with (length b) by lia. rewrite firstn_app, Nat.sub_diag, firstn_O, app_nil_r. apply firstn_all2. lia.
Qed.
Definition pick {A} (rows : list A) (r : nat * nat) : list A := firstn (snd r - fst r) (skipn (fst r) rows).
Lemma pick_split : forall A (rows : list A) r, fst r <= snd r <= length rows -> rows = firstn (fst r) rows ++ pick rows r ++ skipn (snd r) rows /\ firstn (snd r) rows = firstn (fst r) rows ++ pick rows r.
Proof.
  intros A rows [s e] [H1 H2]. cbn [fst snd] in *. unfold pick. cbn [fst snd].
  assert (Q : firstn e rows = firstn s rows ++ firstn (e - s) (skipn s rows)).
  { rewrite <- (firstn_skipn s rows) at 1. rewrite firstn_app, firstn_length. rewrite (firstn_all2 (n := e)) by (rewrite firstn_length; lia). do 2 f_equal. lia. }
  split; [|exact Q]. rewrite app_assoc, <- Q. symmetry. apply firstn_skipn.
Qed.
Lemma index_read : forall kb (xs : list nat) i x, 0 < kb -> nth_error xs i = Some x -> Forall (fun y => (N.of_nat y < 2 ^ (8 * N.of_nat kb))%N) xs ->
  index_at kb (flat_map (fun y => le_bytes kb (trunc kb (N.of_nat y))) xs) i = Some x.
Proof.
  intros kb xs i x K E F. destruct (nth_error_split xs i E) as [a [b [-> LA]]]. unfold index_at. rewrite flat_map_app. cbn [flat_map].
  assert (LL : length (flat_map (fun y => le_bytes kb (trunc kb (N.of_nat y))) a) = i * kb) by (subst i; clear; induction a as [|y a IH]; [reflexivity|]; cbn [flat_map length]; rewrite app_length, le_bytes_length, IH; lia).
  rewrite <- LL. set (q := le_bytes kb (trunc kb (N.of_nat x))). replace kb with (length q) at 1 by apply le_bytes_length. rewrite sub_mid. cbn [omap]. subst q. apply Forall_app in F as [_ F]. inversion F as [|? ? F1 _]; subst.
  rewrite trunc_id by exact F1. rewrite of_le_bytes_le by (rewrite pow256; exact F1). now rewrite Nnat.Nat2N.id.
Qed.
Lemma pack_fits : forall max x, (N.of_nat max < 18446744073709551616)%N -> x <= max -> 0 < max -> (N.of_nat x < 2 ^ (8 * N.of_nat (pack_width max)))%N /\ 0 < pack_width max.
Proof.
  intros max x M X P. unfold pack_width. destruct (Nat.eqb_spec max 0); [lia|]. destruct (N.ltb_spec (N.of_nat max) 256); [split; [change (2 ^ (8 * N.of_nat 1))%N with 256%N|]; lia|]. destruct (N.ltb_spec (N.of_nat max) 65536); [split; [change (2 ^ (8 * N.of_nat 2))%N with 65536%N|]; lia|].
  destruct (N.ltb_spec (N.of_nat max) 4294967296); [split; [change (2 ^ (8 * N.of_nat 4))%N with 4294967296%N|]; lia|split; [change (2 ^ (8 * N.of_nat 8))%N with 18446744073709551616%N|]; lia].
Qed.
Lemma flat_len : forall A (f : A -> list N) k l, (forall x, length (f x) = k) -> length (flat_map f l) = length l * k.
Proof. intros A f k l H. induction l as [|x l IH]; [reflexivity|]. cbn [flat_map length]. rewrite app_length, H, IH. lia. Qed.
(* the data of ranges of rows, by the repetition index *)
Lemma fetch_rows : forall wd enc z rows rs max, z_data z = flat_map (bytes_of wd enc) (concat rows) -> z_rows z = length rows ->
  0 < max -> (N.of_nat max < 18446744073709551616)%N -> length (z_data z) <= max -> Forall (fun r => fst r <= snd r <= length rows) rs ->
  fetch_rep z (pack max (row_starts wd enc 0 rows)) 1 rs = Some (map (fun r => flat_map (bytes_of wd enc) (concat (pick rows r))) rs).
Proof.
  intros wd enc z rows rs max D R P M L F. unfold fetch_rep. rewrite R, D.
  set (xs := row_starts wd enc 0 rows). assert (X := row_starts_max wd enc rows 0). fold xs in X. rewrite Nat.add_0_l, <- D in X.
  destruct (pack_fits max 0 M ltac:(lia) P) as [_ KB]. set (kb := pack_width max) in *.
  assert (LI : length (pack max xs) = (length rows + 1) * kb) by (unfold pack; rewrite (flat_len _ _ kb) by (intros; apply le_bytes_length); unfold xs; rewrite row_starts_length; lia).
  rewrite LI. rewrite !Nat.mul_1_l. replace ((length rows + 1) * kb / (length rows + 1)) with kb by (rewrite Nat.mul_comm, Nat.div_mul; lia).
  assert (FX : Forall (fun y => (N.of_nat y < 2 ^ (8 * N.of_nat kb))%N) xs) by (eapply Forall_impl; [|exact X]; intros y Y; apply (pack_fits max y M); [cbn beta in Y; lia|exact P]).
  induction F as [|r rs H F IH]; [reflexivity|]. cbn [map sequence_opt]. rewrite IH. rewrite !Nat.mul_1_r.
  assert (N1 := row_starts_nth wd enc rows 0 (fst r) ltac:(lia)). assert (N2 := row_starts_nth wd enc rows 0 (snd r) ltac:(lia)). fold xs in N1, N2.
  unfold pack. fold kb. rewrite (index_read kb xs _ _ KB N1 FX), (index_read kb xs _ _ KB N2 FX). cbn [obind]. rewrite !Nat.add_0_l.
  destruct (pick_split _ rows r H) as [P1 P2]. rewrite P2. assert (DE : flat_map (bytes_of wd enc) (concat rows) = flat_map (bytes_of wd enc) (concat (firstn (fst r) rows)) ++ flat_map (bytes_of wd enc) (concat (pick rows r)) ++ flat_map (bytes_of wd enc) (concat (skipn (snd r) rows))) by (rewrite P1 at 1; rewrite !concat_app, !flat_map_app; reflexivity).
  rewrite DE, concat_app, flat_map_app, app_length, sub_mid. reflexivity.
Qed.
