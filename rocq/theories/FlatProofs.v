From Coq Require Import List Arith NArith Bool Lia ZifyBool ZifyN ZifyNat.
From Verif Require Import Lib PageModel FlatModel.
Import ListNotations.
Local Open Scope nat_scope.

(* ---- the rows asked for ---- *)
Definition sel {A} (rs : list range) (skip n : nat) (l : list A) : list A := firstn n (skipn skip (flat_map (fun r => slice (fst r) (snd r) l) rs)).
Definition rows_of (rs : list range) : nat := sumn (map (fun r => snd r - fst r) rs).
Definition ranges_in (n : nat) (rs : list range) : Prop := Forall (fun r => fst r < snd r /\ snd r <= n) rs.
(* no batch both starts inside a range and goes on past its end *)
Fixpoint aligned (rs : list range) (skip n : nat) : Prop :=
  match rs with
  | [] => True
  | (s, e) :: t => if e - s <=? skip then aligned t (skip - (e - s)) n else skip = 0 \/ skip + n <= e - s
  end.
Definition scale (d : nat) (rs : list range) : list range := map (fun r => (fst r * d, snd r * d)) rs.

Lemma slice_length {A} : forall s e (l : list A), e <= length l -> length (slice s e l) = e - s.
Proof. intros. unfold slice. rewrite firstn_length, skipn_length. lia. Qed.
Lemma slice_map {A B} (f : A -> B) : forall s e l, slice s e (map f l) = map f (slice s e l).
Proof. intros. unfold slice. now rewrite skipn_map, firstn_map. Qed.
Lemma all_length {A} : forall rs (l : list A), ranges_in (length l) rs -> length (flat_map (fun r => slice (fst r) (snd r) l) rs) = rows_of rs.
Proof. intros rs l F. induction F as [|r rs [R1 R2] F IH]; [reflexivity|]. cbn [flat_map]. unfold rows_of in *. cbn [map sumn]. rewrite app_length, slice_length, IH by assumption. reflexivity. Qed.
Lemma sel_length {A} : forall rs skip n (l : list A), ranges_in (length l) rs -> skip + n <= rows_of rs -> length (sel rs skip n l) = n.
Proof. intros rs skip n l F B. unfold sel. rewrite firstn_length, skipn_length, all_length by assumption. lia. Qed.
Lemma all_map {A B} (f : A -> B) : forall rs l, flat_map (fun r => slice (fst r) (snd r) (map f l)) rs = map f (flat_map (fun r => slice (fst r) (snd r) l) rs).
Proof. intros rs l. induction rs as [|r rs IH]; [reflexivity|]. cbn [flat_map]. now rewrite map_app, slice_map, IH. Qed.
Lemma sel_map {A B} (f : A -> B) : forall rs skip n l, sel rs skip n (map f l) = map f (sel rs skip n l).
Proof. intros. unfold sel. now rewrite all_map, skipn_map, firstn_map. Qed.
Lemma slice_In {A} : forall s e (l : list A) x, In x (slice s e l) -> In x l.
Proof.
  intros s e l x X. unfold slice in X. apply (In_nth _ _ x) in X as [k [K X]]. rewrite <- (firstn_skipn s l). apply in_or_app. right.
  rewrite <- (firstn_skipn (e - s) (skipn s l)). apply in_or_app. left. rewrite <- X. now apply nth_In.
Qed.
Lemma sel_In {A} : forall rs skip n (l : list A) x, In x (sel rs skip n l) -> In x l.
Proof.
  intros rs skip n l x X. unfold sel in X. set (f := flat_map _ _) in X.
  assert (Y : In x f). { rewrite <- (firstn_skipn skip f). apply in_or_app. right. rewrite <- (firstn_skipn n (skipn skip f)). apply in_or_app. now left. }
  apply in_flat_map in Y as [r [_ R]]. apply slice_In in R. exact R.
Qed.

(* ---- concatenations of pieces of the same length ---- *)
Section Uniform.
  Context {A B : Type}.
  Variable g : A -> list B.
  Variable d : nat.
  Lemma flat_length : forall l, (forall x, In x l -> length (g x) = d) -> length (flat_map g l) = length l * d.
  Proof. induction l as [|x l IH]; intros H; [reflexivity|]. cbn [flat_map length]. rewrite app_length, IH, (H x (or_introl eq_refl)); [lia|]. intros; apply H; now right. Qed.
  Lemma flat_skipn : forall k l, (forall x, In x l -> length (g x) = d) -> skipn (k * d) (flat_map g l) = flat_map g (skipn k l).
  Proof.
    induction k as [|k IH]; intros l H; [reflexivity|]. destruct l as [|x l]; [now rewrite !skipn_nil|]. cbn [flat_map skipn].
    rewrite skipn_app, (H x (or_introl eq_refl)). rewrite skipn_all2 by (rewrite (H x (or_introl eq_refl)); lia). cbn [app].
    replace (S k * d - d) with (k * d) by lia. apply IH. intros; apply H; now right.
  Qed.
  Lemma flat_firstn : forall k l, (forall x, In x l -> length (g x) = d) -> firstn (k * d) (flat_map g l) = flat_map g (firstn k l).
  Proof.
    induction k as [|k IH]; intros l H; [reflexivity|]. destruct l as [|x l]; [now rewrite !firstn_nil|]. cbn [flat_map firstn].
    rewrite firstn_app, (H x (or_introl eq_refl)). rewrite firstn_all2 by (rewrite (H x (or_introl eq_refl)); lia).
    replace (S k * d - d) with (k * d) by lia. f_equal. apply IH. intros; apply H; now right.
  Qed.
  Lemma skipn_In' : forall k (l : list A) x, In x (skipn k l) -> In x l.
  Proof. intros k l x X. rewrite <- (firstn_skipn k l). apply in_or_app. now right. Qed.
  Lemma flat_slice : forall s e l, (forall x, In x l -> length (g x) = d) -> slice (s * d) (e * d) (flat_map g l) = flat_map g (slice s e l).
  Proof. intros s e l H. unfold slice. rewrite flat_skipn, <- Nat.mul_sub_distr_r, flat_firstn; auto. intros x X. apply H. eapply skipn_In'; eauto. Qed.
  Lemma flat_all : forall rs l, (forall x, In x l -> length (g x) = d) ->
    flat_map (fun r => slice (fst r) (snd r) (flat_map g l)) (scale d rs) = flat_map g (flat_map (fun r => slice (fst r) (snd r) l) rs).
  Proof. intros rs l H. induction rs as [|r rs IH]; [reflexivity|]. cbn [scale map flat_map fst snd]. rewrite flat_slice by assumption. rewrite flat_map_app. f_equal. exact IH. Qed.
  Lemma flat_sel : forall rs skip n l, (forall x, In x l -> length (g x) = d) ->
    sel (scale d rs) (skip * d) (n * d) (flat_map g l) = flat_map g (sel rs skip n l).
  Proof.
    intros rs skip n l H. unfold sel. rewrite flat_all by assumption.
    assert (H' : forall x, In x (flat_map (fun r => slice (fst r) (snd r) l) rs) -> length (g x) = d).
    { intros x X. apply in_flat_map in X as [r [_ R]]. apply slice_In in R. auto. }
    rewrite flat_skipn by assumption. apply flat_firstn. intros x X. apply H'. eapply skipn_In'; eauto.
  Qed.
  Lemma groups_flat : forall l, (forall x, In x l -> length (g x) = d) -> groups d (length l) (flat_map g l) = map g l.
  Proof.
    induction l as [|x l IH]; intros H; [reflexivity|]. unfold groups in *. cbn [length seq map flat_map]. f_equal.
    - rewrite Nat.mul_0_l. cbn [skipn]. rewrite firstn_app, (H x (or_introl eq_refl)), Nat.sub_diag, firstn_O, app_nil_r. apply firstn_all2. rewrite (H x (or_introl eq_refl)). lia.
    - rewrite <- IH by (intros; apply H; now right). rewrite <- seq_shift, map_map. apply map_ext. intros i. f_equal.
      rewrite skipn_app, (H x (or_introl eq_refl)). rewrite skipn_all2 by (rewrite (H x (or_introl eq_refl)); lia). cbn [app]. f_equal. lia.
  Qed.
  Lemma groups_sel : forall rs skip n l, (forall x, In x l -> length (g x) = d) -> ranges_in (length l) rs -> skip + n <= rows_of rs ->
    groups d n (sel (scale d rs) (skip * d) (n * d) (flat_map g l)) = map g (sel rs skip n l).
  Proof.
    intros rs skip n l H F S. rewrite flat_sel by assumption. rewrite <- (sel_length rs skip n l F S) at 1. apply groups_flat.
    intros x X. apply H. eapply sel_In; eauto.
  Qed.
End Uniform.
Lemma groups_length {A} : forall d n (l : list A), length (groups d n l) = n.
Proof. intros. unfold groups. now rewrite map_length, seq_length. Qed.
Lemma groups_app {A} : forall d n m (a b : list A), length a = n * d -> groups d (n + m) (a ++ b) = groups d n a ++ groups d m b.
Proof.
  intros d n m a b H. unfold groups. rewrite seq_app, map_app. f_equal.
  - apply map_ext_in. intros i I. apply in_seq in I. rewrite skipn_app, firstn_app, skipn_length.
    replace (d - (length a - i * d)) with 0 by nia. now rewrite firstn_O, app_nil_r.
  - cbn [Nat.add]. replace (seq n m) with (map (fun i => n + i) (seq 0 m)).
    2: { clear. revert n. induction m as [|m IH]; intros n; [reflexivity|]. cbn [seq map]. f_equal; [lia|]. rewrite <- (IH (S n)), <- seq_shift, map_map. apply map_ext. intros; lia. }
    rewrite map_map. apply map_ext. intros i. f_equal. rewrite skipn_app, H. rewrite skipn_all2 by nia. cbn [app]. f_equal. nia.
Qed.
(* a list is the concatenation of its groups *)
Lemma groups_concat {A} : forall d n (l : list A), length l = n * d -> l = flat_map (fun i => firstn d (skipn (i * d) l)) (seq 0 n).
Proof.
  intros d n. induction n as [|n IH]; intros l H; [destruct l; [reflexivity|discriminate]|].
  cbn [seq flat_map]. rewrite Nat.mul_0_l. cbn [skipn]. rewrite <- (firstn_skipn d l) at 1. f_equal.
  rewrite (IH (skipn d l)) at 1 by (rewrite skipn_length; lia). rewrite <- seq_shift. clear.
  induction (seq 0 n) as [|i s IH]; [reflexivity|]. cbn [map flat_map]. rewrite IH. f_equal. rewrite skipn_skipn'. f_equal. 
Qed.
Lemma chunk_length {A} : forall d n (l : list A) i, length l = n * d -> In i (seq 0 n) -> length (firstn d (skipn (i * d) l)) = d.
Proof. intros d n l i H I. apply in_seq in I. rewrite firstn_length, skipn_length, H. nia. Qed.
Lemma groups_sel_list {A} : forall d n rs skip k (l : list A), length l = n * d -> ranges_in n rs -> skip + k <= rows_of rs ->
  groups d k (sel (scale d rs) (skip * d) (k * d) l) = sel rs skip k (groups d n l).
Proof.
  intros d n rs skip k l H F B. rewrite (groups_concat d n l H) at 1. rewrite (groups_sel _ d).
  - unfold groups. now rewrite sel_map.
  - intros i I. now apply (chunk_length d n).
  - now rewrite seq_length.
  - exact B.
Qed.

(* ---- ranges scaled by the items per row ---- *)
Lemma scale_in : forall d n rs, 0 < d -> ranges_in n rs -> ranges_in (n * d) (scale d rs).
Proof. intros d n rs D F. unfold scale. apply Forall_forall. intros r R. apply in_map_iff in R as [q [<- Q]]. unfold ranges_in in F. rewrite Forall_forall in F. destruct (F q Q). cbn [fst snd]. nia. Qed.
Lemma scale_rows : forall d rs, rows_of (scale d rs) = rows_of rs * d.
Proof. intros d rs. unfold rows_of, scale. induction rs as [|r rs IH]; [reflexivity|]. cbn [map sumn fst snd]. rewrite IH. nia. Qed.
Lemma scale_aligned : forall d rs skip n, 0 < d -> aligned rs skip n -> aligned (scale d rs) (skip * d) (n * d).
Proof.
  intros d rs. induction rs as [|[s e] rs IH]; intros skip n D H; [exact Logic.I|]. cbn [aligned scale map fst snd] in *. rewrite <- Nat.mul_sub_distr_r.
  destruct (e - s <=? skip) eqn:E.
  - replace ((e - s) * d <=? skip * d) with true by (symmetry; apply Nat.leb_le; apply Nat.leb_le in E; nia).
    rewrite <- Nat.mul_sub_distr_r. now apply IH.
  - replace ((e - s) * d <=? skip * d) with false by (symmetry; apply Nat.leb_gt; apply Nat.leb_gt in E; nia). destruct H; [left|right]; nia.
Qed.

(* ---- bitmaps ---- *)
Lemma bytes_for_ge : forall n, n <= 8 * bytes_for n.
Proof. intros. unfold bytes_for. pose proof (Nat.div_mod (n + 7) 8). pose proof (Nat.mod_upper_bound (n + 7) 8). lia. Qed.
Lemma bytes_for_mono : forall a b, a <= b -> bytes_for a <= bytes_for b.
Proof. intros. unfold bytes_for. apply Nat.div_le_mono; lia. Qed.
Lemma pack_length : forall l, length (pack_bits l) = bytes_for (length l).
Proof. intros. unfold pack_bits. now rewrite map_length, seq_length. Qed.
Lemma byte_bit : forall l i, N.testbit (byte_of l) (N.of_nat i) = nth i l false.
Proof.
  induction l as [|b l IH]; intros i; [destruct i; reflexivity|]. cbn [byte_of fold_right]. fold (byte_of l).
  replace ((if b then 1 else 0) + 2 * byte_of l)%N with (2 * byte_of l + N.b2n b)%N by (destruct b; cbn [N.b2n]; lia).
  destruct i as [|i]; cbn [nth].
  - apply N.testbit_0_r.
  - rewrite Nat2N.inj_succ, N.testbit_succ_r. apply IH.
Qed.
Lemma nth_skipn' {A} : forall k i (l : list A) d, nth i (skipn k l) d = nth (k + i) l d.
Proof. induction k as [|k IH]; intros i l d; [reflexivity|]. destruct l; [destruct i; reflexivity|]. cbn [skipn Nat.add nth]. apply IH. Qed.
Lemma nth_firstn' {A} : forall k i (l : list A) d, i < k -> nth i (firstn k l) d = nth i l d.
Proof. induction k as [|k IH]; intros i l d H; [lia|]. destruct l; [destruct i; reflexivity|]. destruct i; [reflexivity|]. cbn [firstn nth]. apply IH. lia. Qed.
Lemma bit_pack : forall l i, bit_at (pack_bits l) i = nth i l false.
Proof.
  intros l i. unfold bit_at. assert (M : i mod 8 < 8) by (apply Nat.mod_upper_bound; lia). pose proof (Nat.div_mod i 8 ltac:(lia)) as DM.
  destruct (lt_dec (i / 8) (bytes_for (length l))) as [L|L].
  - unfold pack_bits. rewrite (nth_indep _ 0%N (byte_of (firstn 8 (skipn (8 * 0) l)))) by (now rewrite map_length, seq_length).
    rewrite (map_nth (fun k => byte_of (firstn 8 (skipn (8 * k) l)))), seq_nth by assumption. cbn [Nat.add].
    rewrite byte_bit, nth_firstn', nth_skipn' by assumption. f_equal. lia.
  - rewrite (nth_overflow (pack_bits l)) by (rewrite pack_length; lia). rewrite nth_overflow. { apply N.bits_0. } pose proof (bytes_for_ge (length l)). lia.
Qed.
Lemma bits_seq : forall l s k, s + k <= length l -> map (bit_at (pack_bits l)) (seq s k) = slice s (s + k) l.
Proof.
  intros l s k H. transitivity (map (fun i => nth i l false) (seq s k)); [apply map_ext; intros; apply bit_pack|].
  unfold slice. replace (s + k - s) with k by lia. revert s H. induction k as [|k IH]; intros s H; [reflexivity|]. cbn [seq map]. rewrite IH by lia.
  destruct (skipn s l) as [|x t] eqn:E. { apply (f_equal (@length bool)) in E. rewrite skipn_length in E. cbn in E. lia. }
  assert (T : skipn (S s) l = t). { replace (S s) with (s + 1) by lia. rewrite <- skipn_skipn', E. reflexivity. }
  rewrite T. cbn [firstn]. f_equal. rewrite <- (Nat.add_0_r s), <- nth_skipn', E. reflexivity.
Qed.
Lemma read_pack : forall l n, n = length l -> read_bits (pack_bits l) n = Some l.
Proof.
  intros l n ->. unfold read_bits. rewrite pack_length. replace (length l <=? 8 * bytes_for (length l)) with true by (symmetry; apply Nat.leb_le, bytes_for_ge).
  rewrite bits_seq by lia. unfold slice. cbn [Nat.add skipn]. rewrite Nat.sub_0_r. now rewrite firstn_all.
Qed.
Lemma bit_slice : forall b s e j, s mod 8 + j < 8 * (e - s / 8) -> e <= length b -> bit_at (slice (s / 8) e b) (s mod 8 + j) = bit_at b (s + j).
Proof.
  intros b s e j H L. unfold bit_at, slice.
  assert (D : (s + j) / 8 = s / 8 + (s mod 8 + j) / 8). { rewrite (Nat.div_mod s 8) at 1 by lia. rewrite <- Nat.add_assoc, Nat.mul_comm. rewrite Nat.div_add_l by lia. reflexivity. }
  assert (M : (s + j) mod 8 = (s mod 8 + j) mod 8). { rewrite (Nat.div_mod s 8) at 1 by lia. rewrite <- Nat.add_assoc, Nat.add_comm, Nat.mul_comm. now rewrite Nat.mod_add by lia. }
  rewrite D, M. rewrite nth_firstn'. { now rewrite nth_skipn'. } apply Nat.div_lt_upper_bound; lia.
Qed.
(* one range, from inside it *)
Lemma packed_ok : forall l s e a k, s < e -> e <= length l -> a + k <= e - s ->
  packed_range (a + s mod 8) (a + s mod 8 + k) (slice (s / 8) (bytes_for e) (pack_bits l)) = Some (firstn k (skipn a (slice s e l))).
Proof.
  intros l s e a k S E A. unfold packed_range.
  assert (BE : bytes_for e <= length (pack_bits l)) by (rewrite pack_length; now apply bytes_for_mono).
  rewrite slice_length by exact BE. pose proof (bytes_for_ge e) as G. pose proof (Nat.div_mod s 8 ltac:(lia)) as DM.
  replace (a + s mod 8 + k <=? 8 * (bytes_for e - s / 8)) with true by (symmetry; apply Nat.leb_le; lia).
  f_equal. replace (a + s mod 8 + k - (a + s mod 8)) with k by lia.
  transitivity (map (bit_at (pack_bits l)) (seq (s + a) k)).
  - assert (Q : forall m, m <= k -> map (bit_at (slice (s / 8) (bytes_for e) (pack_bits l))) (seq (a + s mod 8) m) = map (bit_at (pack_bits l)) (seq (s + a) m)).
    { induction m as [|m IH]; intros K; [reflexivity|]. rewrite !seq_S, !map_app, IH by lia. f_equal. cbn [map]. f_equal.
      replace (a + s mod 8 + m) with (s mod 8 + (a + m)) by lia. rewrite bit_slice; [f_equal; lia|lia|exact BE]. }
    apply Q. lia.
  - rewrite bits_seq by lia. unfold slice. rewrite skipn_firstn_comm, skipn_skipn', firstn_firstn. f_equal. lia.
Qed.
Lemma decode_bits_ok : forall l rs skip n, ranges_in (length l) rs -> skip + n <= rows_of rs -> aligned rs skip n ->
  decode_bits (map (fun r => {| b_data := slice (fst r / 8) (bytes_for (snd r)) (pack_bits l); b_off := fst r mod 8; b_len := snd r - fst r |}) rs) skip n = Some (sel rs skip n l).
Proof.
  intros l rs skip n F. revert skip n. induction F as [|[s e] rs [R1 R2] F IH]; intros skip n B AL.
  - cbn in *. unfold sel. cbn [flat_map]. now rewrite skipn_nil, firstn_nil.
  - cbn [map decode_bits b_len b_off b_data fst snd aligned] in *. unfold rows_of in B. cbn [map sumn fst snd] in B. fold (rows_of rs) in B.
    assert (SL : length (slice s e l) = e - s) by now apply slice_length.
    destruct (e - s <=? skip) eqn:E.
    + apply Nat.leb_le in E. rewrite IH by (try assumption; lia). f_equal. unfold sel. cbn [flat_map fst snd]. rewrite skipn_app, SL. rewrite (skipn_all2 (slice s e l)) by lia. reflexivity.
    + apply Nat.leb_gt in E. assert (T : skip + Nat.min n (e - s) <= e - s) by (destruct AL; lia).
      rewrite packed_ok by assumption. rewrite IH.
      * f_equal. unfold sel. cbn [flat_map fst snd]. rewrite skipn_app, firstn_app, SL. cbn [skipn].
        replace (skip - (e - s)) with 0 by lia. cbn [skipn]. rewrite skipn_length, SL. 
        destruct AL as [->|AL].
        -- cbn [skipn]. rewrite !Nat.sub_0_r. destruct (le_dec n (e - s)).
           ++ rewrite Nat.min_l by lia. replace (n - n) with 0 by lia. replace (n - (e - s)) with 0 by lia. reflexivity.
           ++ rewrite Nat.min_r by lia. f_equal. rewrite !firstn_all2 by lia. reflexivity.
        -- rewrite Nat.min_l by lia. replace (n - n) with 0 by lia. replace (n - (e - s - skip)) with 0 by lia. reflexivity.
      * destruct AL; lia.
      * clear. destruct rs as [|[s' e'] t]; [exact Logic.I|]. cbn [aligned].
        assert (Z : forall t m, aligned t 0 m). { clear. induction t as [|[a b] t IH]; intros m; [exact Logic.I|]. cbn [aligned]. destruct (b - a <=? 0) eqn:E; [|now left]. apply Nat.leb_le in E. replace (0 - (b - a)) with 0 by lia. apply IH. }
        destruct (e' - s' <=? 0) eqn:E; [|now left]. replace (0 - (e' - s')) with 0 by lia. apply Z.
Qed.

(* ---- flat values ---- *)
Lemma decode_some : forall bufs take d, decode_buffers bufs 0 take (Some d) = d ++ firstn take (concat bufs).
Proof.
  induction bufs as [|b t IH]; intros take d; [cbn; now rewrite firstn_nil, app_nil_r|]. cbn [decode_buffers concat]. rewrite Nat.sub_0_r.
  change (length b <? 0) with false. cbn match. rewrite IH. rewrite <- app_assoc. f_equal. unfold slice. cbn [Nat.add skipn]. rewrite Nat.sub_0_r, firstn_app.
  f_equal; [|f_equal; lia]. destruct (le_dec (length b) take); [rewrite Nat.min_l by lia; rewrite !firstn_all2 by lia; reflexivity|now rewrite Nat.min_r by lia].
Qed.
Lemma decode_none : forall bufs skip take, decode_buffers bufs skip take None = firstn take (skipn skip (concat bufs)).
Proof.
  induction bufs as [|b t IH]; intros skip take; [cbn; now rewrite skipn_nil, firstn_nil|]. cbn [decode_buffers concat].
  destruct (length b <? skip) eqn:E.
  - apply Nat.ltb_lt in E. rewrite IH, skipn_app. now rewrite (skipn_all2 b) by lia.
  - apply Nat.ltb_ge in E. rewrite skipn_app. replace (skip - length b) with 0 by lia. cbn [skipn]. unfold slice.
    replace (skip + Nat.min (length b - skip) take - skip) with (Nat.min (length b - skip) take) by lia.
    destruct (take - Nat.min (length b - skip) take) as [|r] eqn:R.
    + rewrite Nat.min_r by lia. rewrite firstn_app, skipn_length. replace (take - (length b - skip)) with 0 by lia. now rewrite firstn_O, app_nil_r.
    + rewrite decode_some, <- R. rewrite Nat.min_l by lia. rewrite firstn_app, skipn_length. f_equal. rewrite !firstn_all2 by (rewrite ?skipn_length; lia). reflexivity.
Qed.
Lemma value_decode : forall w buf rs skip n,
  decode_buffers (map (fun r => slice (fst r * w) (snd r * w) buf) rs) (skip * w) (n * w) None = sel (scale w rs) (skip * w) (n * w) buf.
Proof. intros. rewrite decode_none. unfold sel, scale. f_equal. f_equal. rewrite flat_map_concat_map, map_map. reflexivity. Qed.
