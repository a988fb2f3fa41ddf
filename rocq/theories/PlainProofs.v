(* Plain encoding of format 1 (C138). *)
From Coq Require Import List Arith Bool Lia Sorted.
From Verif Require Import Lib PlainModel.
Import ListNotations.
Local Open Scope nat_scope.

(* values of a type *)
Inductive has : ty -> val -> Prop :=
| has_prim w b : length b = w -> has (TPrim w) (VBytes b)
| has_bool b : has TBool (VBit b)
| has_fsb w b : length b = w -> has (TFsb w) (VBytes b)
| has_fsl t n l : length l = n -> Forall (has t) l -> has (TFsl t n) (VList l).
(* types without sizes of zero *)
Inductive sized : ty -> Prop :=
| sized_prim w : 0 < w -> sized (TPrim w)
| sized_bool : sized TBool
| sized_fsb w : 0 < w -> sized (TFsb w)
| sized_fsl t n : 0 < n -> sized t -> sized (TFsl t n).

Lemma skipn_map' {A B} (f : A -> B) n l : skipn n (map f l) = map f (skipn n l).
Proof. revert l. induction n; intros [|x l]; cbn; auto. Qed.
Lemma nth_error_firstn' {A} n (l : list A) i : i < n -> nth_error (firstn n l) i = nth_error l i.
Proof. revert l i. induction n as [|n IH]; intros [|x l] [|i] H; cbn; auto; try lia. apply IH. lia. Qed.
Lemma nth_error_skipn' {A} n (l : list A) i : nth_error (skipn n l) i = nth_error l (n + i).
Proof. revert l. induction n as [|n IH]; intros [|x l]; cbn; auto. destruct i; reflexivity. Qed.
Lemma slice_length {A} s n (l : list A) : s + n <= length l -> length (slice s n l) = n.
Proof. intros H. unfold slice. rewrite firstn_length, skipn_length. lia. Qed.
Lemma slice_slice {A} a b s k (l : list A) : a + b <= k -> slice a b (slice s k l) = slice (s + a) b l.
Proof. intros H. unfold slice. rewrite skipn_firstn_comm, firstn_firstn, skipn_skipn'. f_equal. lia. Qed.
Lemma slice_mid {A} (pre x post : list A) a k : a + k <= length x -> slice (length pre + a) k (pre ++ x ++ post) = slice a k x.
Proof.
  intros H. unfold slice. rewrite skipn_app, skipn_all2 by lia. replace (length pre + a - length pre) with a by lia. cbn [app]. rewrite skipn_app, firstn_app. rewrite skipn_length. replace (k - (length x - a)) with 0 by lia. cbn [firstn]. now rewrite app_nil_r.
Qed.
Lemma slice_app1 {A} (x post : list A) a k : a + k <= length x -> slice a k (x ++ post) = slice a k x.
Proof. intros H. apply (slice_mid [] x post a k H). Qed.
Lemma slice_map {A B} (f : A -> B) s n l : slice s n (map f l) = map f (slice s n l).
Proof. unfold slice. now rewrite skipn_map', firstn_map. Qed.
Lemma concat_len {A} n (L : list (list A)) : Forall (fun x => length x = n) L -> length (concat L) = length L * n.
Proof. induction 1 as [|x L E _ IH]; cbn; [reflexivity|]. rewrite app_length. lia. Qed.
Lemma skipn_concat {A} n (L : list (list A)) s : Forall (fun x => length x = n) L -> skipn (s * n) (concat L) = concat (skipn s L).
Proof.
  revert L. induction s as [|s IH]; intros L H; [reflexivity|]. destruct H as [|x L E H]; cbn [skipn concat]; [now rewrite skipn_nil|]. replace (S s * n) with (length x + s * n) by lia. rewrite <- skipn_skipn', skipn_app, skipn_all, Nat.sub_diag. cbn. apply IH, H.
Qed.
Lemma firstn_concat {A} n (L : list (list A)) s : Forall (fun x => length x = n) L -> firstn (s * n) (concat L) = concat (firstn s L).
Proof.
  revert L. induction s as [|s IH]; intros L H; [reflexivity|]. destruct H as [|x L E H]; cbn [firstn concat]; [now rewrite firstn_nil|]. replace (S s * n) with (length x + s * n) by lia. rewrite firstn_app_2, IH by exact H. reflexivity.
Qed.
Lemma Forall_slice {A} (P : A -> Prop) s n l : Forall P l -> Forall P (slice s n l).
Proof. rewrite !Forall_forall. intros H x Hx. apply H. unfold slice in Hx. rewrite <- (firstn_skipn s l). apply in_or_app. right. rewrite <- (firstn_skipn n (skipn s l)). apply in_or_app. left. exact Hx. Qed.
Lemma slice_concat {A} n (L : list (list A)) s k : Forall (fun x => length x = n) L -> slice (s * n) (k * n) (concat L) = concat (slice s k L).
Proof. intros H. unfold slice. rewrite skipn_concat by exact H. apply firstn_concat. rewrite <- (firstn_skipn s L), Forall_app in H. apply H. Qed.
Lemma regroup {A} n (M : list (list A)) : Forall (fun x => length x = n) M -> map (fun k => slice (k * n) n (concat M)) (seq 0 (length M)) = M.
Proof.
  induction 1 as [|x M E H IH]; [reflexivity|]. cbn [length seq map concat]. f_equal.
  - unfold slice. cbn. rewrite <- E at 1. rewrite <- (Nat.add_0_r (length x)), firstn_app_2. cbn. apply app_nil_r.
  - rewrite <- seq_shift, map_map, <- IH at 1. rewrite IH. rewrite <- IH at 2. apply map_ext. intros k. unfold slice. replace (S k * n) with (length x + k * n) by lia. rewrite <- skipn_skipn', skipn_app, skipn_all, Nat.sub_diag. reflexivity.
Qed.
Lemma firstn_plus {A} a b (l : list A) : firstn (a + b) l = firstn a l ++ firstn b (skipn a l).
Proof. revert l. induction a as [|a IH]; intros [|x l]; cbn; try rewrite IH; auto; now rewrite firstn_nil. Qed.
Lemma ceil_le a b : a <= b -> ceil a 8 <= ceil b 8.
Proof. intros H. unfold ceil. apply Nat.div_le_mono; lia. Qed.
Lemma ceil_ge a : a <= 8 * ceil a 8 <= a + 7.
Proof. unfold ceil. pose proof (Nat.div_mod (a + 8 - 1) 8 ltac:(lia)). pose proof (Nat.mod_upper_bound (a + 8 - 1) 8 ltac:(lia)). lia. Qed.
Lemma pack_concat l : concat (pack l) = firstn (8 * ceil (length l) 8) (l ++ repeat false 7).
Proof.
  unfold pack. generalize (ceil (length l) 8) as N, (l ++ repeat false 7) as x. intros N x. induction N as [|N IH]; [reflexivity|].
  rewrite seq_S, map_app, concat_app, IH. cbn [map concat]. rewrite app_nil_r, Nat.add_0_l. replace (8 * S N) with (8 * N + 8) by lia. rewrite firstn_plus. reflexivity.
Qed.
Lemma pack_len l : Forall (fun x => length x = 8) (pack l) /\ length (pack l) = ceil (length l) 8.
Proof.
  split; [|unfold pack; now rewrite map_length, seq_length]. unfold pack. apply Forall_forall. intros x Hx. apply in_map_iff in Hx. destruct Hx as (k&<-&Hk). apply in_seq in Hk. apply slice_length. rewrite app_length, repeat_length. pose proof (ceil_ge (length l)). lia.
Qed.

(* what a range read must return *)
Definition reads (rows : list val) (s e : nat) : option (list val) := if e <=? s then Some [] else if length rows <? e then None else Some (slice s (e - s) rows).

Lemma map_bytes w rows : Forall (fun v => exists b, v = VBytes b /\ length b = w) rows -> Forall (fun x => length x = w) (map bytes_of rows) /\ map VBytes (map bytes_of rows) = rows.
Proof. induction 1 as [|v l (b&->&E) _ [I1 I2]]; [split; constructor|]. cbn. split; [constructor; auto|]. now rewrite I2. Qed.
Lemma prim_read pre post w rows s e : Forall (fun v => exists b, v = VBytes b /\ length b = w) rows -> s < e ->
  decode_primitive (pre ++ flat_map bytes_of rows ++ post) (TPrim w) (length pre) (length rows) s e = reads rows s e.
Proof.
  intros H Hse. destruct (map_bytes w rows H) as [H1 H2]. unfold decode_primitive, reads. destruct (Nat.leb_spec e s); [lia|]. destruct (Nat.ltb_spec (length rows) e); [reflexivity|]. cbn [byte_range].
  rewrite flat_map_concat_map. pose proof (concat_len w _ H1) as Lc. rewrite map_length in Lc. unfold read_range. destruct (Nat.leb_spec (length pre + e * w) (length (pre ++ concat (map bytes_of rows) ++ post))) as [_|C]; [|rewrite !app_length, Lc in C; nia].
  replace (length pre + e * w - (length pre + s * w)) with ((e - s) * w) by nia. rewrite slice_mid by (rewrite Lc; nia). rewrite slice_concat by exact H1. cbn [to_array]. f_equal.
  assert (Fs : Forall (fun x : list byte => length x = w) (slice s (e - s) (map bytes_of rows))) by (apply Forall_slice, H1).
  assert (Ls : length (slice s (e - s) (map bytes_of rows)) = e - s) by (apply slice_length; rewrite map_length; lia).
  transitivity (map VBytes (slice s (e - s) (map bytes_of rows))); [|rewrite <- slice_map, H2; reflexivity]. pose proof (regroup w _ Fs) as R. rewrite Ls in R. apply (f_equal (map VBytes)) in R. rewrite map_map in R. exact R.
Qed.
Lemma bool_read pre post l s e : s < e -> decode_primitive (pre ++ pack l ++ post) TBool (length pre) (length l) s e = reads (map VBit l) s e.
Proof.
  intros Hse. unfold decode_primitive, reads. rewrite map_length. destruct (Nat.leb_spec e s); [lia|]. destruct (Nat.ltb_spec (length l) e) as [|Hl]; [reflexivity|]. cbn [byte_range]. destruct (pack_len l) as [F L].
  pose proof (ceil_le e (length l) Hl) as C1. pose proof (ceil_ge e) as C2. pose proof (ceil_ge (length l)) as C3. pose proof (Nat.div_mod s 8 ltac:(lia)) as Dm. pose proof (Nat.mod_upper_bound s 8 ltac:(lia)) as Mb.
  unfold read_range. destruct (Nat.leb_spec (length pre + ceil e 8) (length (pre ++ pack l ++ post))) as [_|C]; [|rewrite !app_length, L in C; lia].
  replace (length pre + ceil e 8 - (length pre + s / 8)) with (ceil e 8 - s / 8) by lia. rewrite slice_mid by (rewrite L; lia). cbn [to_array]. f_equal. rewrite slice_map. f_equal.
  transitivity (slice (s mod 8) (e - s) (slice (s / 8 * 8) ((ceil e 8 - s / 8) * 8) (concat (pack l)))); [f_equal; symmetry; apply (slice_concat 8 (pack l)); exact F|]. rewrite slice_slice by lia. rewrite pack_concat.
  replace (s / 8 * 8 + s mod 8) with s by lia. unfold slice. rewrite skipn_firstn_comm, firstn_firstn. rewrite Nat.min_l by lia. apply (slice_app1 l (repeat false 7) s (e - s)). lia.
Qed.

Lemma flat_items arrays : concat (map (flat_map items_of) arrays) = flat_map items_of (concat arrays).
Proof. induction arrays as [|a l IH]; cbn; [reflexivity|]. now rewrite flat_map_app, IH. Qed.
Lemma flat_flat {A B} (f : A -> list B) l : flat_map (flat_map f) l = flat_map f (concat l).
Proof. induction l as [|a l IH]; cbn; [reflexivity|]. now rewrite flat_map_app, IH. Qed.
Lemma flat_bits l : flat_map (map bit_of) l = map bit_of (concat l).
Proof. induction l as [|a l IH]; cbn; [reflexivity|]. now rewrite map_app, IH. Qed.
Lemma has_fsl_inv t n rows : Forall (has (TFsl t n)) rows -> Forall (fun x => length x = n) (map items_of rows) /\ map VList (map items_of rows) = rows /\ Forall (has t) (concat (map items_of rows)).
Proof.
  induction 1 as [|v l Hv _ (I1&I2&I3)]; [repeat split; constructor|]. inversion Hv as [| | |? ? x Hx Hf]; subst. cbn. split; [constructor; auto|]. split; [now rewrite I2|]. apply Forall_app. auto.
Qed.
Lemma group_concat n M : 0 < n -> Forall (fun x => length x = n) M -> group n (concat M) = map VList M.
Proof. intros Hn F. unfold group. rewrite (concat_len n M F), Nat.div_mul by lia. pose proof (regroup n M F) as R. apply (f_equal (map VList)) in R. rewrite map_map in R. exact R. Qed.
Definition split_bytes (v : val) : list val := map (fun b => VBytes [b]) (bytes_of v).
Lemma split_join b : flat_map bytes_of (map (fun x => VBytes [x]) b) = b.
Proof. induction b; cbn; [reflexivity|]. now rewrite IHb. Qed.

Theorem write_get t pre post arrays s e : sized t -> Forall (has t) (concat arrays) -> get (pre ++ encode t arrays ++ post) t (length pre) (length (concat arrays)) s e = reads (concat arrays) s e.
Proof.
  revert arrays s e. induction t as [w| |w|t IH n]; intros arrays s e Hs Hf; cbn [get encode]; unfold reads at 1; destruct (Nat.leb_spec e s) as [|Hse]; try reflexivity.
  - rewrite flat_flat. rewrite prim_read; [unfold reads; destruct (Nat.leb_spec e s); [lia|reflexivity]| |exact Hse]. eapply Forall_impl; [|exact Hf]. intros v Hv. inversion Hv; subst; eauto.
  - rewrite flat_bits. rewrite <- (map_length bit_of (concat arrays)). rewrite bool_read by exact Hse. unfold reads. destruct (Nat.leb_spec e s); [lia|]. rewrite !map_length. destruct (length (concat arrays) <? e); [reflexivity|]. f_equal. f_equal. rewrite map_map. rewrite <- (map_id (concat arrays)) at 2. apply map_ext_in. intros v Hv. rewrite Forall_forall in Hf. specialize (Hf v Hv). inversion Hf; reflexivity.
  - inversion Hs as [| |? Hw|]; subst. destruct (Nat.leb_spec (e * w) (s * w)); [nia|]. rewrite flat_flat. set (rows := concat arrays) in *.
    assert (Hb : Forall (fun v => exists b, v = VBytes b /\ length b = w) rows) by (eapply Forall_impl; [|exact Hf]; intros v Hv; inversion Hv; subst; eauto).
    assert (E1 : flat_map bytes_of rows = flat_map bytes_of (concat (map split_bytes rows))). { clear -Hb. induction Hb as [|v l (b&->&_) _ I]; cbn; [reflexivity|]. rewrite flat_map_app, split_join. now rewrite I. }
    assert (F1 : Forall (fun x => length x = w) (map split_bytes rows)). { clear -Hb. induction Hb as [|v l (b&->&E) _ I]; cbn; constructor; auto. unfold split_bytes. now rewrite map_length. }
    assert (L1 : length rows * w = length (concat (map split_bytes rows))) by (rewrite (concat_len w _ F1), map_length; reflexivity).
    rewrite E1, L1. rewrite prim_read; [|apply Forall_forall; intros v Hv; apply in_concat in Hv; destruct Hv as (x&Hx&Hv); apply in_map_iff in Hx; destruct Hx as (y&<-&_); apply in_map_iff in Hv; destruct Hv as (b&<-&_); eauto|nia].
    unfold reads. destruct (Nat.leb_spec (e * w) (s * w)); [lia|]. rewrite <- L1. destruct (Nat.ltb_spec (length rows) e), (Nat.ltb_spec (length rows * w) (e * w)); try nia; [reflexivity|].
    replace (e * w - s * w) with ((e - s) * w) by nia. rewrite slice_concat by exact F1. rewrite slice_map. unfold group_bytes. destruct w as [|w']; [lia|]. set (w := S w') in *. f_equal.
    assert (F2 : Forall (fun x => length x = w) (map split_bytes (slice s (e - s) rows))) by (rewrite <- slice_map; apply Forall_slice, F1).
    rewrite (concat_len w _ F2), Nat.div_mul by lia. rewrite <- (map_map (fun k => slice (k * w) w (concat (map split_bytes (slice s (e - s) rows)))) (fun x => VBytes (flat_map bytes_of x))), regroup by exact F2.
    rewrite map_map. rewrite <- (map_id (slice s (e - s) rows)) at 2. apply map_ext_in. intros v Hv. pose proof (Forall_slice _ s (e - s) _ Hb) as Hb'. rewrite Forall_forall in Hb'. destruct (Hb' v Hv) as (b&->&_). unfold split_bytes. cbn [bytes_of]. now rewrite split_join.
  - inversion Hs as [| | |? ? Hn Ht]; subst. destruct (has_fsl_inv t n _ Hf) as (F1&F2&F3). set (rows := concat arrays) in *.
    assert (Ec : concat (map (flat_map items_of) arrays) = concat (map items_of rows)) by (rewrite flat_items, flat_map_concat_map; reflexivity).
    assert (L1 : length rows * n = length (concat (map items_of rows))) by (rewrite (concat_len n _ F1), map_length; reflexivity).
    rewrite L1, <- Ec. rewrite IH; [|exact Ht|rewrite Ec; exact F3]. rewrite Ec. unfold reads. destruct (Nat.leb_spec (e * n) (s * n)); [nia|]. rewrite <- L1. destruct (Nat.ltb_spec (length rows) e), (Nat.ltb_spec (length rows * n) (e * n)); try nia; [reflexivity|].
    cbn [option_map]. f_equal. replace (e * n - s * n) with ((e - s) * n) by nia. rewrite slice_concat by exact F1. rewrite group_concat; [|exact Hn|apply Forall_slice, F1]. rewrite <- slice_map, F2. reflexivity.
Qed.

(* chunks *)
Lemma cut_concat brk l : forall start prev c r, cut brk start prev l = (c, r) -> c ++ concat r = l /\ Forall (fun x => x <> []) r.
Proof.
  induction l as [|x l IH]; intros start prev c r E; cbn in E; [injection E as <- <-; auto|]. destruct (brk start prev x).
  - destruct (cut brk x x l) as [c' r'] eqn:Q. injection E as <- <-. destruct (IH _ _ _ _ Q) as [<- F]. split; [reflexivity|]. constructor; [discriminate|exact F].
  - destruct (cut brk start x l) as [c' r'] eqn:Q. injection E as <- <-. destruct (IH _ _ _ _ Q) as [<- F]. auto.
Qed.
Lemma chunks_concat brk l : concat (chunks brk l) = l /\ Forall (fun x => x <> []) (chunks brk l).
Proof. destruct l as [|x l]; [cbn; auto|]. cbn. destruct (cut brk x x l) as [c r] eqn:Q. destruct (cut_concat _ _ _ _ _ _ Q) as [<- F]. split; [reflexivity|]. constructor; [discriminate|exact F]. Qed.
Lemma all_some_spec {A} (l : list (option A)) r : all_some l = Some r <-> Forall2 (fun x y => x = Some y) l r.
Proof.
  revert r. induction l as [|x l IH]; intros r; cbn; [split; [intros E; injection E as <-; constructor|intros H; inversion H; reflexivity]|]. split.
  - destruct x as [a|]; [|discriminate]. destruct (all_some l) as [b|]; [|discriminate]. intros E. injection E as <-. constructor; [reflexivity|]. apply IH. reflexivity.
  - intros H. inversion H as [|? y ? r' E F]; subst. apply IH in F. rewrite F. reflexivity.
Qed.
Lemma Forall2_map_l {A B C} (P : B -> C -> Prop) (f : A -> B) l r : Forall2 P (map f l) r <-> Forall2 (fun x y => P (f x) y) l r.
Proof. revert r. induction l as [|x l IH]; intros r; cbn; split; intros H; inversion H; subst; constructor; auto; now apply IH. Qed.
Lemma Forall2_concat {A B} (P : A -> B -> Prop) L R : Forall2 (Forall2 P) L R -> Forall2 P (concat L) (concat R).
Proof. induction 1; cbn; [constructor|]. apply Forall2_app; assumption. Qed.
Lemma slice_nth {A} s n (l : list A) i v : nth_error (slice s n l) i = Some v -> nth_error l (s + i) = Some v.
Proof.
  unfold slice. intros H. assert (Hi : i < n). { assert (Q : nth_error (firstn n (skipn s l)) i <> None) by congruence. apply nth_error_Some in Q. rewrite firstn_length in Q. lia. }
  rewrite nth_error_firstn' in H by exact Hi. rewrite nth_error_skipn' in H. exact H.
Qed.
