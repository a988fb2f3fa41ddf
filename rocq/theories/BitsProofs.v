(* C63 *)
From Coq Require Import List NArith ZArith Bool Lia Arith ZifyN.
From Verif Require Import BitsModel.
Import ListNotations.
Local Open Scope N_scope.

Lemma ones_pred k : 2 ^ k - 1 = N.ones k.
Proof. rewrite N.ones_equiv. lia. Qed.

(* n is a power of two exactly when is_pwr_two says so (panic for 0) *)
Lemma pwr_two_exact : forall n, 0 < n -> (is_pwr_two n = Some true <-> exists k, n = 2 ^ k).
Proof.
  intros n P. unfold is_pwr_two. destruct (N.eqb_spec n 0); [lia|].
  split.
  - intros H. injection H as H. apply N.eqb_eq in H. exists (N.log2 n).
    destruct (N.log2_spec n P) as [L U].
    destruct (N.eq_dec n (2 ^ N.log2 n)) as [|D]; auto. exfalso.
    assert (T : N.testbit (N.land n (n - 1)) (N.log2 n) = true).
    { rewrite N.land_spec. rewrite N.bit_log2 by lia.
      replace (N.log2 n) with (N.log2 (n - 1)) at 1; [apply N.bit_log2|].
      - pose proof (N.pow_nonzero 2 (N.log2 n) ltac:(lia)). lia.
      - apply N.log2_unique; lia. }
    rewrite H, N.bits_0 in T. discriminate.
  - intros [k ->]. f_equal. apply N.eqb_eq. rewrite ones_pred, N.land_ones, N.mod_same; auto.
Qed.

(* pad_bytes is the least padding that reaches a multiple of the alignment *)
Lemma pad_least : forall n k, let p := pad_bytes_to n (2 ^ k) in
  (n + p) mod 2 ^ k = 0 /\ p < 2 ^ k /\ forall q, (n + q) mod 2 ^ k = 0 -> p <= q.
Proof.
  intros n k. unfold pad_bytes_to. rewrite ones_pred, !N.land_ones.
  assert (P : 2 ^ k <> 0) by (apply N.pow_nonzero; lia). cbv zeta. set (a := 2 ^ k) in *. clearbody a.
  pose proof (N.mod_lt n a P) as M. pose proof (N.div_mod n a P) as D.
  assert (C : n mod a = 0 /\ (a - n mod a) mod a = 0 \/ 0 < n mod a /\ (a - n mod a) mod a = a - n mod a).
  { destruct (N.eq_dec (n mod a) 0) as [E|E]; [left|right].
    - rewrite E, N.sub_0_r, N.mod_same by exact P. auto.
    - split; [lia|]. apply N.mod_small. lia. }
  destruct C as [[E ->]|[E ->]].
  - repeat split; [rewrite N.add_0_r; exact E|lia|lia].
  - repeat split; [|lia|].
    + replace (n + (a - n mod a)) with ((n / a + 1) * a) by nia. apply N.mod_mul. exact P.
    + intros q Q. destruct (N.le_gt_cases (a - n mod a) q) as [|G]; auto. exfalso.
      replace (n + q) with ((n mod a + q) + (n / a) * a) in Q by nia. rewrite N.mod_add, N.mod_small in Q by lia. lia.
Qed.

Lemma table_size : forall n, n < 256 -> table n = Some (N.size n).
Proof.
  assert (A : forallb (fun k => match table (N.of_nat k) with Some x => x =? N.size (N.of_nat k) | None => false end) (seq 0 256) = true)
    by (vm_compute; reflexivity).
  intros n L. rewrite forallb_forall in A. specialize (A (N.to_nat n)). rewrite N2Nat.id in A.
  assert (In (N.to_nat n) (seq 0 256)) by (apply in_seq; split; [lia|]; change 256%nat with (N.to_nat 256); lia).
  specialize (A H). destruct (table n); [|discriminate]. apply N.eqb_eq in A. congruence.
Qed.
Lemma size_shift : forall v k, N.shiftr v k <> 0 -> N.size v = N.size (N.shiftr v k) + k.
Proof.
  intros v k H.
  assert (v <> 0) by (intros ->; apply H; apply N.shiftr_0_l).
  rewrite !N.size_log2 by assumption. rewrite N.log2_shiftr.
  rewrite N.shiftr_div_pow2 in H.
  assert (K : 2 ^ k <= v). { destruct (N.le_gt_cases (2 ^ k) v); auto. rewrite N.div_small in H by assumption. lia. }
  apply N.log2_le_mono in K. rewrite N.log2_pow2 in K by lia. lia.
Qed.
Lemma shiftr_lt v k j : v < 2 ^ (k + j) -> N.shiftr v k < 2 ^ j.
Proof. intros H. rewrite N.shiftr_div_pow2. apply N.div_lt_upper_bound; [apply N.pow_nonzero; lia|]. rewrite <- N.pow_add_r. exact H. Qed.
Lemma shiftr_0_lt v k : N.shiftr v k = 0 -> v < 2 ^ k.
Proof. rewrite N.shiftr_div_pow2. intros H. apply N.div_small_iff in H; auto. apply N.pow_nonzero. lia. Qed.

(* the number of bits needed: the least b with v < 2^b *)
Lemma log_2_ceil_bits : forall v, 0 < v -> v < 2 ^ 32 -> exists b, log_2_ceil v = Some b /\ v < 2 ^ b /\ forall c, v < 2 ^ c -> b <= c.
Proof.
  intros v P L. exists (N.size v). split; [|split].
  - unfold log_2_ceil. destruct (N.eqb_spec v 0); [lia|].
    destruct (N.eqb_spec (N.shiftr v 16) 0) as [E|E].
    + apply shiftr_0_lt in E. destruct (N.eqb_spec (N.shiftr v 8) 0) as [F|F].
      * apply shiftr_0_lt in F. apply table_size. exact F.
      * rewrite table_size by (apply (shiftr_lt v 8 8); exact E). cbn [plus_opt]. rewrite (size_shift v 8) by exact F. reflexivity.
    + destruct (N.eqb_spec (N.shiftr (N.shiftr v 16) 8) 0) as [F|F].
      * apply shiftr_0_lt in F. rewrite table_size by exact F. cbn [plus_opt]. rewrite (size_shift v 16) by exact E. reflexivity.
      * rewrite N.shiftr_shiftr in *. rewrite table_size by (apply (shiftr_lt v (16 + 8) 8); exact L).
        cbn [plus_opt]. rewrite (size_shift v (16 + 8)) by exact F. reflexivity.
  - apply N.size_gt.
  - intros c H. rewrite N.size_log2 by lia. apply N.le_succ_l. apply N.log2_lt_pow2; lia.
Qed.
(* it never panics except on 0 *)
Lemma log_2_ceil_total : forall v, v < 2 ^ 32 -> (log_2_ceil v = None <-> v = 0).
Proof.
  intros v L. split; [|intros ->; reflexivity]. intros H. destruct (N.eq_dec v 0); auto.
  destruct (log_2_ceil_bits v) as [b [E _]]; [lia|exact L|congruence].
Qed.
Example pad_ex : pad_bytes_to 13 8 = 3 /\ pad_bytes_to 16 8 = 0 /\ pad_bytes_to 0 64 = 0 /\ pad_bytes_to 1 1 = 0.
Proof. repeat split. Qed.
Example log_ex : log_2_ceil 1 = Some 1 /\ log_2_ceil 255 = Some 8 /\ log_2_ceil 256 = Some 9 /\ log_2_ceil 65536 = Some 17 /\ log_2_ceil 4294967295 = Some 32.
Proof. repeat split. Qed.
