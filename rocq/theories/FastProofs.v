(* Proofs about bit packing: one lane, all lanes, and back. *)
From Coq Require Import List Arith NArith Bool Lia.
From Verif Require Import Lib SerdeModel FullZipModel MiniModel FastModel.
Import ListNotations.
Local Open Scope nat_scope.

(* ---- bits ---- *)
Definition tb (x : N) (b : nat) : bool := N.testbit x (N.of_nat b).
Lemma tb_ext : forall x y, (forall b, tb x b = tb y b) -> x = y.
Proof. intros x y H. apply N.bits_inj. intros n. specialize (H (N.to_nat n)). unfold tb in H. now rewrite N2Nat.id in H. Qed.
Lemma tb_lor : forall x y b, tb (N.lor x y) b = tb x b || tb y b.
Proof. intros. apply N.lor_spec. Qed.
Lemma tb_shl : forall t x s b, tb (shl t x s) b = (b <? t) && (s <=? b) && tb x (b - s).
Proof.
  intros t x s b. unfold tb, shl. destruct (Nat.ltb_spec b t) as [A|A].
  - rewrite N.mod_pow2_bits_low by lia. destruct (Nat.leb_spec s b) as [B|B]; [|rewrite N.shiftl_spec_low by lia; reflexivity].
    rewrite N.shiftl_spec_high' by lia. cbn [andb]. f_equal. lia.
  - rewrite N.mod_pow2_bits_high by lia. reflexivity.
Qed.
Lemma tb_shr : forall x s b, tb (shr x s) b = tb x (b + s).
Proof. intros. unfold tb, shr. rewrite N.shiftr_spec'. f_equal. lia. Qed.
Lemma low_ones : forall w, low_mask w = N.ones (N.of_nat w).
Proof. intros w. unfold low_mask. rewrite N.ones_equiv, N.shiftl_1_l. lia. Qed.
Lemma tb_low : forall x w b, tb (N.land x (low_mask w)) b = (b <? w) && tb x b.
Proof.
  intros x w b. unfold tb. rewrite N.land_spec, low_ones. destruct (Nat.ltb_spec b w) as [A|A]; [rewrite N.ones_spec_low by lia|rewrite N.ones_spec_high by lia]; now destruct (N.testbit x _).
Qed.
Lemma tb_mask : forall t x w b, 0 < t -> w <= t -> tb (N.land x (mask t w)) b = (b <? w) && tb x b.
Proof.
  intros t x w b T W. unfold mask. destruct (Nat.eqb_spec w t) as [->|D].
  - replace (2 ^ N.of_nat t - 1)%N with (low_mask t); [apply tb_low|]. unfold low_mask. now rewrite N.shiftl_1_l.
  - rewrite Nat.mod_small by lia. apply tb_low.
Qed.
Lemma tb_high : forall x w b, (x < 2 ^ N.of_nat w)%N -> w <= b -> tb x b = false.
Proof.
  intros x w b H L. unfold tb. destruct (N.eq_dec x 0) as [->|D]; [apply N.bits_0|]. apply N.bits_above_log2, N.log2_lt_pow2; [lia|]. eapply N.lt_le_trans; [exact H|apply N.pow_le_mono_r; lia].
Qed.

(* ---- arrays and loops ---- *)
Lemma put_some : forall i x l, i < length l -> exists l', put i x l = Some l' /\ length l' = length l /\ forall j, nth_error l' j = if j =? i then Some x else nth_error l j.
Proof.
  intros i x l H. unfold put. rewrite (proj2 (Nat.ltb_lt _ _) H). exists (firstn i l ++ x :: skipn (S i) l). split; [reflexivity|]. split.
  - rewrite app_length, firstn_length. cbn [length]. rewrite skipn_length. lia.
  - intros j. assert (LF : length (firstn i l) = i) by (rewrite firstn_length; lia). destruct (Nat.eqb_spec j i) as [->|D].
    + rewrite nth_error_app2, LF, Nat.sub_diag by lia. reflexivity.
    + destruct (Nat.lt_ge_cases j i) as [A|A].
      * rewrite nth_error_app1 by lia. rewrite <- (firstn_skipn i l) at 2. rewrite nth_error_app1 by lia. reflexivity.
      * rewrite nth_error_app2, LF by lia. replace (j - i) with (S (j - S i)) by lia. cbn [nth_error]. rewrite <- (firstn_skipn (S i) l) at 2. assert (LG : length (firstn (S i) l) = S i) by (rewrite firstn_length; lia). rewrite nth_error_app2, LG by lia. reflexivity.
Qed.
Lemma loop_inv : forall A (f : nat -> A -> option A) (P : nat -> A -> Prop) n s a, P s a -> (forall i a, s <= i < s + n -> P i a -> exists a', f i a = Some a' /\ P (S i) a') -> exists a', loop f (seq s n) a = Some a' /\ P (s + n) a'.
Proof.
  intros A f P n. induction n as [|n IH]; intros s a H F; [exists a; rewrite Nat.add_0_r; auto|]. destruct (F s a ltac:(lia) H) as [a' [E H']]. cbn [seq loop]. rewrite E. cbn [obind].
  destruct (IH (S s) a' H') as [a'' [E' H'']]; [intros; apply F; auto; lia|]. exists a''. replace (s + S n) with (S s + n) by lia. auto.
Qed.

(* ---- one lane ---- *)
(* the values x 0, x 1, ... as one stream of [w] bits each *)
Definition sbit (x : nat -> N) (w p : nat) : bool := tb (x (p / w)) (p mod w).
Lemma sbit_at : forall x w r i, i < w -> sbit x w (r * w + i) = tb (x r) i.
Proof. intros x w r i H. unfold sbit. rewrite Nat.add_comm, Nat.div_add, Nat.mod_add, Nat.div_small, Nat.mod_small by lia. reflexivity. Qed.
(* the word [j] of the stream cut in words of [t] bits *)
Definition word_ok (x : nat -> N) (t w j : nat) (v : N) : Prop := forall b, tb v b = (b <? t) && sbit x w (t * j + b).
Lemma next_row : forall t w r, 0 < w < t -> (r + 1) * w / t = (if t <=? (r * w) mod t + w then S (r * w / t) else r * w / t) /\ ((r + 1) * w) mod t = (if t <=? (r * w) mod t + w then (r * w) mod t + w - t else (r * w) mod t + w).
Proof.
  intros t w r H. assert (D := Nat.div_mod (r * w) t ltac:(lia)). assert (M := Nat.mod_upper_bound (r * w) t ltac:(lia)). set (c := r * w / t) in *. set (s := (r * w) mod t) in *.
  destruct (Nat.leb_spec t (s + w)) as [A|A].
  - split; [symmetry; apply Nat.div_unique with (s + w - t)|symmetry; apply Nat.mod_unique with (S c)]; nia.
  - split; [symmetry; apply Nat.div_unique with (s + w)|symmetry; apply Nat.mod_unique with c]; nia.
Qed.

Section Lane.
Context (t w lane : nat) (x : nat -> N) (W : 0 < w) (WT : w <= t) (TL : 0 < lanes t) (LL : lane < lanes t).

Lemma word_at_ne : forall j k, j <> k -> lanes t * j + lane <> lanes t * k + lane.
Proof. intros j k D E. apply D. nia. Qed.

Lemma pack_lane_ok : forall input packed, (forall r, r < t -> nth_error input (fl_index r lane) = Some (x r)) -> (forall r, r < t -> (x r < 2 ^ N.of_nat t)%N) -> lanes t * w <= length packed ->
  exists p, pack_lane t w input lane packed = Some p /\ length p = length packed /\
    (forall j, j < w -> exists v, nth_error p (lanes t * j + lane) = Some v /\ word_ok x t w j v) /\
    (forall i, (forall j, j < w -> i <> lanes t * j + lane) -> nth_error p i = nth_error packed i).
Proof.
  intros input packed IN XT LP. unfold pack_lane. destruct (Nat.eqb_spec w t) as [E|D].
  - subst w. destruct (loop_inv _ (fun row p => obind (nth_error input (fl_index row lane)) (fun y => put (lanes t * row + lane) y p))
      (fun r p => length p = length packed /\ (forall j, j < r -> nth_error p (lanes t * j + lane) = Some (x j)) /\ (forall i, (forall j, j < r -> i <> lanes t * j + lane) -> nth_error p i = nth_error packed i)) t 0 packed) as [p (E & P1 & P2 & P3)].
    + split; [reflexivity|]. split; [intros; lia|reflexivity].
    + intros i a I (A1 & A2 & A3). rewrite IN by lia. cbn [obind]. destruct (put_some (lanes t * i + lane) (x i) a) as [l' (B1 & B2 & B3)]; [nia|]. exists l'. split; [exact B1|]. split; [lia|]. split.
      * intros j J. rewrite B3. destruct (Nat.eqb_spec (lanes t * j + lane) (lanes t * i + lane)) as [F|F]; [assert (j = i) by nia; subst; reflexivity|]. apply A2. assert (j <> i) by (intros ->; lia). lia.
      * intros k K. rewrite B3. destruct (Nat.eqb_spec k (lanes t * i + lane)) as [F|F]; [exfalso; apply (K i); auto|]. apply A3. intros j J. apply K. lia.
    + rewrite E. exists p. split; [reflexivity|]. split; [exact P1|]. split; [|exact P3]. intros j J. exists (x j). split; [apply P2; exact J|]. intros b. destruct (Nat.ltb_spec b t) as [B|B]; [|apply tb_high with t; auto].
      rewrite Nat.mul_comm, sbit_at by lia. reflexivity.
  - assert (H : 0 < w < t) by lia.
    destruct (loop_inv _ (pack_row t w lane input)
      (fun r st => (forall b, tb (fst st) b = (b <? (r * w) mod t) && sbit x w (t * (r * w / t) + b)) /\ length (snd st) = length packed /\
        (forall j, j < r * w / t -> exists v, nth_error (snd st) (lanes t * j + lane) = Some v /\ word_ok x t w j v) /\
        (forall i, (forall j, j < r * w / t -> i <> lanes t * j + lane) -> nth_error (snd st) i = nth_error packed i)) t 0 (0%N, packed)) as [[tmp p] (E & P0 & P1 & P2 & P3)].
    + cbn [fst snd]. rewrite Nat.mul_0_l, Nat.mod_0_l, Nat.div_0_l by lia. split; [intros b; unfold tb; rewrite N.bits_0; reflexivity|]. split; [reflexivity|]. split; [intros; lia|reflexivity].
    + intros r [tmp p] I (A0 & A1 & A2 & A3). cbn [fst snd] in *. unfold pack_row. rewrite IN by lia. cbn [obind fst snd]. destruct (next_row t w r H) as [N1 N2]. assert (DM := Nat.div_mod (r * w) t ltac:(lia)). assert (MU := Nat.mod_upper_bound (r * w) t ltac:(lia)).
      set (c := r * w / t) in *. set (s := (r * w) mod t) in *. set (src := N.land (x r) (low_mask w)). set (tmp' := if r =? 0 then src else N.lor tmp (shl t src s)).
      assert (TB : forall b, tb tmp' b = (b <? Nat.min t (s + w)) && sbit x w (t * c + b)).
      { assert (TL' : forall b, tb (N.lor tmp (shl t src s)) b = (b <? Nat.min t (s + w)) && sbit x w (t * c + b)).
        { intros b. rewrite tb_lor, A0, tb_shl. unfold src. rewrite tb_low. destruct (Nat.ltb_spec b s) as [B|B].
          - rewrite (proj2 (Nat.leb_gt s b)) by lia. rewrite (proj2 (Nat.ltb_lt b (Nat.min t (s + w)))) by lia. rewrite andb_false_r. cbn [andb]. now rewrite orb_false_r.
          - rewrite (proj2 (Nat.leb_le s b)) by lia. cbn [andb orb]. rewrite andb_true_r. destruct (Nat.ltb_spec b (Nat.min t (s + w))) as [C|C].
            + rewrite (proj2 (Nat.ltb_lt b t)), (proj2 (Nat.ltb_lt (b - s) w)) by lia. cbn [andb]. replace (t * c + b) with (r * w + (b - s)) by lia. rewrite sbit_at by lia. reflexivity.
            + cbn [andb]. destruct (Nat.ltb_spec b t); [|reflexivity]. rewrite (proj2 (Nat.ltb_ge (b - s) w)) by lia. reflexivity. }
        intros b. unfold tmp'. destruct (Nat.eqb_spec r 0) as [R|R]; [|apply TL']. rewrite <- TL'. assert (tmp = 0%N) as ->; [|].
        { apply tb_ext. intros b'. rewrite A0. assert (s = 0) as -> by (unfold s; subst r; apply Nat.mod_0_l; lia). unfold tb. rewrite N.bits_0. reflexivity. }
        assert (s = 0) as -> by (unfold s; subst r; apply Nat.mod_0_l; lia). rewrite N.lor_0_l, tb_shl, Nat.sub_0_r. cbn [Nat.leb]. rewrite andb_true_r. destruct (Nat.ltb_spec b t); [reflexivity|]. unfold src. rewrite tb_low. rewrite (proj2 (Nat.ltb_ge b w)) by lia. reflexivity. }
      replace ((S r) * w) with ((r + 1) * w) by lia. rewrite N1, N2. destruct (Nat.leb_spec t (s + w)) as [Q|Q].
      * rewrite (proj2 (Nat.ltb_lt c (S c))) by lia. assert (CW : c < w) by nia. destruct (put_some (lanes t * c + lane) tmp' p) as [l' (B1 & B2 & B3)]; [nia|]. rewrite B1. cbn [omap]. eexists. split; [reflexivity|]. cbn [fst snd]. split; [|split; [lia|split]].
        -- intros b. rewrite tb_shr. unfold src. rewrite tb_low. destruct (Nat.ltb_spec b (s + w - t)) as [B|B].
           ++ rewrite (proj2 (Nat.ltb_lt (b + (w - (s + w - t))) w)) by lia. cbn [andb]. replace (t * S c + b) with (r * w + (b + (w - (s + w - t)))) by lia. rewrite sbit_at by lia. reflexivity.
           ++ rewrite (proj2 (Nat.ltb_ge (b + (w - (s + w - t))) w)) by lia. reflexivity.
        -- intros j J. destruct (Nat.eq_dec j c) as [->|JC].
           ++ exists tmp'. rewrite B3, Nat.eqb_refl. split; [reflexivity|]. intros b. rewrite TB, Nat.min_l by lia. reflexivity.
           ++ destruct (A2 j ltac:(lia)) as [v [V1 V2]]. exists v. rewrite B3, (proj2 (Nat.eqb_neq _ _) (word_at_ne j c JC)). auto.
        -- intros i K. rewrite B3. destruct (Nat.eqb_spec i (lanes t * c + lane)) as [F|F]; [exfalso; apply (K c); auto|]. apply A3. intros j J. apply K. lia.
      * rewrite Nat.ltb_irrefl. eexists. split; [reflexivity|]. cbn [fst snd]. split; [|split; [exact A1|split; [exact A2|exact A3]]]. intros b. rewrite TB, Nat.min_r by lia. reflexivity.
    + rewrite E. cbn [omap snd fst Nat.add] in *. rewrite (Nat.mul_comm t w), Nat.div_mul in P2, P3 by lia. exists p. auto.
Qed.

Lemma unpack_lane_ok : forall packed out, (forall j, j < w -> exists v, nth_error packed (lanes t * j + lane) = Some v /\ word_ok x t w j v) ->
  (forall r, r < t -> fl_index r lane < length out) -> (forall r r', r < t -> r' < t -> fl_index r lane = fl_index r' lane -> r = r') ->
  exists o, unpack_lane t w packed lane out = Some o /\ length o = length out /\
    (forall r, r < t -> exists v, nth_error o (fl_index r lane) = Some v /\ forall b, tb v b = (b <? w) && tb (x r) b) /\
    (forall i, (forall r, r < t -> i <> fl_index r lane) -> nth_error o i = nth_error out i).
Proof.
  intros packed out PK IL IJ. unfold unpack_lane.
  (* writing one row *)
  assert (STEP : forall r a v, r < t -> length a = length out ->
    (forall k, k < r -> exists v, nth_error a (fl_index k lane) = Some v /\ forall b, tb v b = (b <? w) && tb (x k) b) ->
    (forall i, (forall k, k < r -> i <> fl_index k lane) -> nth_error a i = nth_error out i) ->
    (forall b, tb v b = (b <? w) && tb (x r) b) ->
    exists o, put (fl_index r lane) v a = Some o /\ length o = length out /\
      (forall k, k < S r -> exists v, nth_error o (fl_index k lane) = Some v /\ forall b, tb v b = (b <? w) && tb (x k) b) /\
      (forall i, (forall k, k < S r -> i <> fl_index k lane) -> nth_error o i = nth_error out i)).
  { intros r a v R A1 A2 A3 V. destruct (put_some (fl_index r lane) v a) as [o (B1 & B2 & B3)]; [rewrite A1; auto|]. exists o. split; [exact B1|]. split; [lia|]. split.
    - intros k K. rewrite B3. destruct (Nat.eqb_spec (fl_index k lane) (fl_index r lane)) as [F|F].
      + apply IJ in F; [|lia|lia]. subst k. eauto.
      + apply A2. assert (k <> r) by (intros ->; auto). lia.
    - intros i K. rewrite B3. destruct (Nat.eqb_spec i (fl_index r lane)) as [F|F]; [exfalso; apply (K r); auto|]. apply A3. intros k J. apply K. lia. }
  destruct (Nat.eqb_spec w t) as [E|D].
  - destruct (loop_inv _ (fun row o => obind (nth_error packed (lanes t * row + lane)) (fun y => put (fl_index row lane) y o))
      (fun r o => length o = length out /\ (forall k, k < r -> exists v, nth_error o (fl_index k lane) = Some v /\ forall b, tb v b = (b <? w) && tb (x k) b) /\ (forall i, (forall k, k < r -> i <> fl_index k lane) -> nth_error o i = nth_error out i)) t 0 out) as [o (F & P)].
    + split; [reflexivity|]. split; [intros; lia|reflexivity].
    + intros r a I (A1 & A2 & A3). destruct (PK r ltac:(lia)) as [v [V1 V2]]. rewrite V1. cbn [obind]. apply STEP; auto; [lia|]. intros b. rewrite V2. rewrite E in *. destruct (Nat.ltb_spec b t); [|reflexivity]. rewrite Nat.mul_comm, sbit_at by lia. reflexivity.
    + rewrite F. exists o. split; [reflexivity|exact P].
  - assert (H : 0 < w < t) by lia. destruct (PK 0 W) as [v0 [V1 V2]]. rewrite Nat.mul_0_r in V1. cbn [Nat.add] in V1. rewrite V1. cbn [obind].
    destruct (loop_inv _ (unpack_row t w lane packed)
      (fun r st => (r < t -> word_ok x t w (r * w / t) (fst st)) /\ length (snd st) = length out /\ (forall k, k < r -> exists v, nth_error (snd st) (fl_index k lane) = Some v /\ forall b, tb v b = (b <? w) && tb (x k) b) /\ (forall i, (forall k, k < r -> i <> fl_index k lane) -> nth_error (snd st) i = nth_error out i)) t 0 (v0, out)) as [[src o] (F & P)].
    + cbn [fst snd]. rewrite Nat.mul_0_l, Nat.div_0_l by lia. split; [auto|]. split; [reflexivity|]. split; [intros; lia|reflexivity].
    + intros r [src a] I (A0 & A1 & A2 & A3). cbn [fst snd] in *. specialize (A0 ltac:(lia)). unfold unpack_row. cbn [fst snd]. destruct (next_row t w r H) as [N1 N2]. assert (DM := Nat.div_mod (r * w) t ltac:(lia)). assert (MU := Nat.mod_upper_bound (r * w) t ltac:(lia)).
      replace ((S r) * w) with ((r + 1) * w) by lia. rewrite N1, N2. set (c := r * w / t) in *. set (s := (r * w) mod t) in *.
      (* the bits of a word from the shift on *)
      assert (LO : forall n b, n <= w -> s + n <= t -> tb (N.land (shr src s) (mask t n)) b = (b <? n) && tb (x r) b).
      { intros n b NW NT. rewrite tb_mask, tb_shr by lia. destruct (Nat.ltb_spec b n) as [B|B]; [|reflexivity]. cbn [andb]. rewrite A0. rewrite (proj2 (Nat.ltb_lt (b + s) t)) by lia. cbn [andb]. replace (t * c + (b + s)) with (r * w + b) by lia. apply sbit_at. lia. }
      destruct (Nat.leb_spec t (s + w)) as [Q|Q].
      * rewrite (proj2 (Nat.ltb_lt c (S c))) by lia. destruct (Nat.ltb_spec (S c) w) as [NX|NX].
        -- destruct (PK (S c) NX) as [v [V3 V4]]. rewrite V3. cbn [omap obind]. match goal with |- context [put _ ?y a] => destruct (STEP r a y) as [o (B1 & B2)]; auto; [lia| |] end.
           ++ intros b. rewrite tb_lor, LO, tb_shl, tb_mask by lia. destruct (Nat.ltb_spec b (w - (s + w - t))) as [B|B].
              ** rewrite (proj2 (Nat.leb_gt (w - (s + w - t)) b)) by lia. rewrite (proj2 (Nat.ltb_lt b w)) by lia. rewrite andb_false_r. cbn [andb]. now rewrite orb_false_r.
              ** rewrite (proj2 (Nat.leb_le (w - (s + w - t)) b)) by lia. cbn [andb orb]. rewrite andb_true_r. destruct (Nat.ltb_spec b w) as [C|C].
                 --- rewrite (proj2 (Nat.ltb_lt b t)), (proj2 (Nat.ltb_lt (b - (w - (s + w - t))) (s + w - t))) by lia. cbn [andb]. rewrite V4, (proj2 (Nat.ltb_lt (b - (w - (s + w - t))) t)) by lia. cbn [andb]. replace (t * S c + (b - (w - (s + w - t)))) with (r * w + b) by lia. apply sbit_at. lia.
                 --- destruct (Nat.ltb_spec b t); [|reflexivity]. rewrite (proj2 (Nat.ltb_ge (b - (w - (s + w - t))) (s + w - t))) by lia. reflexivity.
           ++ rewrite B1. cbn [omap]. eexists. split; [reflexivity|]. cbn [fst snd]. auto.
        -- assert (RW : (r + 1) * w <= t * w) by nia. assert (s + w = t) by nia. cbn [obind]. match goal with |- context [put _ ?y a] => destruct (STEP r a y) as [o (B1 & B2)]; auto; [lia| |] end.
           ++ intros b. rewrite LO by lia. replace (w - (s + w - t)) with w by lia. reflexivity.
           ++ rewrite B1. cbn [omap]. eexists. split; [reflexivity|]. cbn [fst snd]. split; [|exact B2]. intros R. exfalso. nia.
      * rewrite Nat.ltb_irrefl. cbn [obind]. match goal with |- context [put _ ?y a] => destruct (STEP r a y) as [o (B1 & B2)]; auto; [lia| |] end.
        -- intros b. apply LO; lia.
        -- rewrite B1. cbn [omap]. eexists. split; [reflexivity|]. cbn [fst snd]. auto.
    + rewrite F. cbn [omap snd fst Nat.add] in *. exists o. split; [reflexivity|]. exact (proj2 P).
Qed.
End Lane.

(* ---- all lanes ---- *)
Definition word_bits (t : nat) : Prop := t = 8 \/ t = 16 \/ t = 32 \/ t = 64.
(* where a value is *)
Definition fl_row (t i : nat) : nat := 8 * nth (i mod 128 / lanes t * (lanes t / 16)) fl_order 0 + i / 128.
Definition fl_lane (t i : nat) : nat := (i mod 128) mod lanes t.
Definition index_check (t : nat) : bool :=
  forallb (fun r => forallb (fun l => (fl_index r l <? 1024) && (fl_row t (fl_index r l) =? r) && (fl_lane t (fl_index r l) =? l)) (seq 0 (lanes t))) (seq 0 t) &&
  forallb (fun i => (fl_index (fl_row t i) (fl_lane t i) =? i) && (fl_row t i <? t) && (fl_lane t i <? lanes t)) (seq 0 1024).
Lemma index_checked : forall t, word_bits t -> index_check t = true.
Proof. intros t [->|[->|[->| ->]]]; vm_compute; reflexivity. Qed.
Lemma index_ok : forall t r l, word_bits t -> r < t -> l < lanes t -> fl_index r l < 1024 /\ fl_row t (fl_index r l) = r /\ fl_lane t (fl_index r l) = l.
Proof.
  intros t r l T R L. assert (C := index_checked t T). unfold index_check in C. apply andb_true_iff in C as [C _]. rewrite forallb_forall in C. specialize (C r ltac:(apply in_seq; lia)). rewrite forallb_forall in C. specialize (C l ltac:(apply in_seq; lia)).
  apply andb_true_iff in C as [C C3]. apply andb_true_iff in C as [C1 C2]. split; [apply Nat.ltb_lt; exact C1|]. split; apply Nat.eqb_eq; assumption.
Qed.
Lemma index_onto : forall t i, word_bits t -> i < 1024 -> fl_index (fl_row t i) (fl_lane t i) = i /\ fl_row t i < t /\ fl_lane t i < lanes t.
Proof.
  intros t i T R. assert (C := index_checked t T). unfold index_check in C. apply andb_true_iff in C as [_ C]. rewrite forallb_forall in C. specialize (C i ltac:(apply in_seq; lia)).
  apply andb_true_iff in C as [C C3]. apply andb_true_iff in C as [C1 C2]. split; [apply Nat.eqb_eq; exact C1|]. split; apply Nat.ltb_lt; assumption.
Qed.
Lemma lanes_pos : forall t, word_bits t -> 0 < lanes t /\ 0 < t /\ lanes t * t = 1024.
Proof. intros t [->|[->|[->| ->]]]; vm_compute; repeat split; lia. Qed.
Lemma packed_size : forall t w, word_bits t -> 1024 * w / t = lanes t * w.
Proof. intros t w T. destruct (lanes_pos t T) as (A & B & C). rewrite <- C. replace (lanes t * t * w) with (lanes t * w * t) by lia. apply Nat.div_mul. lia. Qed.

Lemma fl_pack_ok : forall t w input packed, word_bits t -> 0 < w <= t -> length input = 1024 -> Forall (fun x => (x < 2 ^ N.of_nat t)%N) input -> length packed = 1024 * w / t ->
  exists p, fl_pack t w input packed = Some p /\ length p = 1024 * w / t /\
    forall l j, l < lanes t -> j < w -> exists v, nth_error p (lanes t * j + l) = Some v /\ word_ok (fun r => nth (fl_index r l) input 0%N) t w j v.
Proof.
  intros t w input packed T W LI FI LP. destruct (lanes_pos t T) as (T1 & T2 & T3). unfold fl_pack. rewrite LI, LP, !Nat.ltb_irrefl. destruct (Nat.eqb_spec w 0) as [|_]; [lia|]. rewrite (proj2 (Nat.ltb_ge t w)) by lia. cbn [orb]. rewrite packed_size in LP by auto.
  destruct (loop_inv _ (pack_lane t w input) (fun n p => length p = length packed /\ forall l j, l < n -> j < w -> exists v, nth_error p (lanes t * j + l) = Some v /\ word_ok (fun r => nth (fl_index r l) input 0%N) t w j v) (lanes t) 0 packed) as [p (E & P1 & P2)].
  - split; [reflexivity|intros; lia].
  - intros l a L (A1 & A2). destruct (pack_lane_ok t w l (fun r => nth (fl_index r l) input 0%N) ltac:(lia) ltac:(lia) T1 ltac:(lia) input a) as [p (B1 & B2 & B3 & B4)].
    + intros r R. apply nth_error_nth'. rewrite LI. apply (index_ok t r l T R). lia.
    + intros r R. rewrite Forall_forall in FI. apply FI, nth_In. rewrite LI. apply (index_ok t r l T R). lia.
    + lia.
    + exists p. split; [exact B1|]. split; [lia|]. intros m j M J. destruct (Nat.eq_dec m l) as [->|D]; [apply B3; exact J|]. rewrite B4; [apply A2; lia|]. intros k K F.
      assert (Q1 : (m + j * lanes t) mod lanes t = m) by (rewrite Nat.mod_add, Nat.mod_small by lia; reflexivity). assert (Q2 : (l + k * lanes t) mod lanes t = l) by (rewrite Nat.mod_add, Nat.mod_small by lia; reflexivity). replace (m + j * lanes t) with (l + k * lanes t) in Q1 by lia. lia.
  - exists p. split; [exact E|]. split; [rewrite packed_size by auto; lia|]. intros l j L J. apply P2; auto.
Qed.

Lemma fl_unpack_ok : forall t w (x : nat -> nat -> N) packed out, word_bits t -> 0 < w <= t -> length packed = 1024 * w / t -> length out = 1024 ->
  (forall l j, l < lanes t -> j < w -> exists v, nth_error packed (lanes t * j + l) = Some v /\ word_ok (x l) t w j v) ->
  exists o, fl_unpack t w packed out = Some o /\ length o = 1024 /\ forall r l, r < t -> l < lanes t -> exists v, nth_error o (fl_index r l) = Some v /\ forall b, tb v b = (b <? w) && tb (x l r) b.
Proof.
  intros t w x packed out T W LP LO PK. destruct (lanes_pos t T) as (T1 & T2 & T3). unfold fl_unpack. rewrite LP, LO, !Nat.ltb_irrefl. destruct (Nat.eqb_spec w 0) as [|_]; [lia|]. rewrite (proj2 (Nat.ltb_ge t w)) by lia. cbn [orb].
  destruct (loop_inv _ (unpack_lane t w packed) (fun n o => length o = 1024 /\ forall r l, r < t -> l < n -> exists v, nth_error o (fl_index r l) = Some v /\ forall b, tb v b = (b <? w) && tb (x l r) b) (lanes t) 0 out) as [o (E & P1 & P2)].
  - split; [exact LO|intros; lia].
  - intros l a L (A1 & A2). destruct (unpack_lane_ok t w l (x l) ltac:(lia) ltac:(lia) T1 ltac:(lia) packed a) as [o (B1 & B2 & B3 & B4)].
    + intros j J. apply PK; lia.
    + intros r R. rewrite A1. apply (index_ok t r l T R). lia.
    + intros r r' R R' F. destruct (index_ok t r l T R ltac:(lia)) as (_ & I1 & _). destruct (index_ok t r' l T R' ltac:(lia)) as (_ & I2 & _). rewrite F in I1. congruence.
    + exists o. split; [exact B1|]. split; [lia|]. intros r m R M. destruct (Nat.eq_dec m l) as [->|D]; [apply B3; exact R|]. rewrite B4; [apply A2; lia|]. intros r' R' F.
      destruct (index_ok t r m T R ltac:(lia)) as (_ & _ & I1). destruct (index_ok t r' l T R' ltac:(lia)) as (_ & _ & I2). rewrite F in I1. congruence.
  - exists o. split; [exact E|]. split; [exact P1|]. intros r l R L. apply P2; auto.
Qed.

(* ---- there and back ---- *)
Lemma tb_mod : forall x w b, tb (x mod 2 ^ N.of_nat w) b = (b <? w) && tb x b.
Proof. intros x w b. unfold tb. destruct (Nat.ltb_spec b w); [rewrite N.mod_pow2_bits_low by lia|rewrite N.mod_pow2_bits_high by lia]; reflexivity. Qed.
Theorem pack_unpack_mod : forall t w input packed out, word_bits t -> 0 < w <= t -> length input = 1024 -> Forall (fun x => (x < 2 ^ N.of_nat t)%N) input -> length packed = 1024 * w / t -> length out = 1024 ->
  exists p, fl_pack t w input packed = Some p /\ length p = 1024 * w / t /\ Forall (fun v => (v < 2 ^ N.of_nat t)%N) p /\ fl_unpack t w p out = Some (map (fun x => x mod 2 ^ N.of_nat w)%N input).
Proof.
  intros t w input packed out T W LI FI LP LO. destruct (lanes_pos t T) as (T1 & T2 & T3). destruct (fl_pack_ok t w input packed T W LI FI LP) as [p (P1 & P2 & P3)]. exists p. split; [exact P1|]. split; [exact P2|].
  destruct (fl_unpack_ok t w (fun l r => nth (fl_index r l) input 0%N) p out T W P2 LO P3) as [o (O1 & O2 & O3)]. split.
  - apply Forall_forall. intros v V. destruct (In_nth_error _ _ V) as [i I]. assert (IL : i < length p) by (apply nth_error_Some; congruence). rewrite P2, packed_size in IL by auto. assert (DM := Nat.div_mod i (lanes t) ltac:(lia)). destruct (P3 (i mod lanes t) (i / lanes t)) as [v' [V1 V2]]; [apply Nat.mod_upper_bound; lia|apply Nat.div_lt_upper_bound; lia|].
    rewrite <- DM in V1. assert (v' = v) by congruence. subst v'. replace v with (v mod 2 ^ N.of_nat t)%N; [apply N.mod_lt, N.pow_nonzero; discriminate|]. apply tb_ext. intros b. rewrite tb_mod, V2. now destruct (b <? t).
  - rewrite O1. f_equal. apply nth_ext with 0%N (0 mod 2 ^ N.of_nat w)%N; [rewrite map_length; lia|]. intros i I. rewrite (map_nth (fun x => x mod 2 ^ N.of_nat w)%N). destruct (index_onto t i T ltac:(lia)) as (X1 & X2 & X3). destruct (O3 _ _ X2 X3) as [v [V1 V2]]. rewrite X1 in V1, V2. rewrite (nth_error_nth _ _ _ V1). apply tb_ext. intros b. rewrite V2, tb_mod. reflexivity.
Qed.
(* values of no more than [w] bits come back *)
Theorem pack_unpack : forall t w input packed out, word_bits t -> 0 < w <= t -> length input = 1024 -> Forall (fun x => (x < 2 ^ N.of_nat w)%N) input -> length packed = 1024 * w / t -> length out = 1024 ->
  exists p, fl_pack t w input packed = Some p /\ length p = 1024 * w / t /\ Forall (fun v => (v < 2 ^ N.of_nat t)%N) p /\ fl_unpack t w p out = Some input.
Proof.
  intros t w input packed out T W LI FI LP LO. destruct (pack_unpack_mod t w input packed out T W LI) as [p (P1 & P2 & P3 & P4)]; auto.
  - eapply Forall_impl; [|exact FI]. intros x X. eapply N.lt_le_trans; [exact X|]. apply N.pow_le_mono_r; lia.
  - exists p. split; [exact P1|]. split; [exact P2|]. split; [exact P3|]. rewrite P4. f_equal. transitivity (map (fun x => x) input); [|apply map_id]. apply map_ext_in. intros x X. rewrite Forall_forall in FI. apply N.mod_small, FI, X.
Qed.
(* where every bit of every value is, whatever the array held before *)
Theorem pack_layout : forall t w input packed, word_bits t -> 0 < w <= t -> length input = 1024 -> Forall (fun x => (x < 2 ^ N.of_nat t)%N) input -> length packed = 1024 * w / t ->
  exists p, fl_pack t w input packed = Some p /\ length p = 1024 * w / t /\
    forall o s l b, 8 * o + s < t -> s < 8 -> l < 1024 / t -> b < w ->
      N.testbit (nth ((1024 / t) * (((8 * o + s) * w + b) / t) + l) p 0%N) (N.of_nat (((8 * o + s) * w + b) mod t)) = N.testbit (nth (16 * nth o [0; 4; 2; 6; 1; 5; 3; 7] 0 + 128 * s + l) input 0%N) (N.of_nat b).
Proof.
  intros t w input packed T W LI FI LP. destruct (lanes_pos t T) as (T1 & T2 & T3). destruct (fl_pack_ok t w input packed T W LI FI LP) as [p (P1 & P2 & P3)]. exists p. split; [exact P1|]. split; [exact P2|]. intros o s l b R S L B. set (r := 8 * o + s) in *. set (q := r * w + b).
  assert (DM := Nat.div_mod q t ltac:(lia)). assert (MU := Nat.mod_upper_bound q t ltac:(lia)). destruct (P3 l (q / t) L) as [v [V1 V2]]; [apply Nat.div_lt_upper_bound; [lia|unfold q; nia]|].
  change (1024 / t) with (lanes t). rewrite (nth_error_nth _ _ _ V1). specialize (V2 (q mod t)). rewrite (proj2 (Nat.ltb_lt _ _) MU) in V2. cbn [andb] in V2. rewrite <- DM in V2. unfold q in V2 at 2. rewrite sbit_at in V2 by exact B. unfold tb in V2. rewrite V2. f_equal. f_equal. unfold fl_index.
  assert (r / 8 = o) as -> by (unfold r; symmetry; apply Nat.div_unique with s; lia). assert (r mod 8 = s) as -> by (unfold r; symmetry; apply Nat.mod_unique with o; lia). unfold fl_order. lia.
Qed.
