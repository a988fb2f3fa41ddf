(* Proofs about blob columns (C117): what is written is what is read. *)
From Coq Require Import List Arith NArith Lia Bool Sorting.Sorted.
From Verif Require Import Lib SchedModel SchedProofs BitsModel BlobModel.
Import ListNotations.

(* ---- spec ---- *)
(* the values of an arrow array *)
Definition values_of {B} (a : binarray B) : list (option (list B)) :=
  map (fun p => if snd p : bool then Some (firstn (snd (fst p) - fst (fst p)) (skipn (fst (fst p)) (ba_data a))) else None)
      (combine (windows2 (ba_offsets a)) (nulls_of a)).
(* an array arrow accepts *)
Definition array_ok {B} (a : binarray B) : Prop :=
  Forall (fun w => fst w <= snd w /\ snd w <= length (ba_data a)) (windows2 (ba_offsets a)) /\
  length (nulls_of a) = length (windows2 (ba_offsets a)).
(* consecutive pieces of the given lengths *)
Fixpoint chunks {A} (sizes : list nat) (l : list A) : list (list A) :=
  match sizes with [] => [] | n :: t => firstn n l :: chunks t (skipn n l) end.

(* what a description says *)
Definition rng (d : nat * nat) : range := (fst d, fst d + snd d).
Definition valid_of (d : nat * nat) : bool := negb (fst d =? 1) || negb (snd d =? 0).
Definition val_of {B} (file : list B) (d : nat * nat) : option (list B) :=
  if valid_of d then Some (bytes_of file (rng d)) else None.
Definition desc_ok {B} (file : list B) (d : nat * nat) (v : option (list B)) : Prop :=
  match v with
  | None => d = (1, 0)
  | Some [] => d = (0, 0)
  | Some l => snd d = length l /\ fst d + snd d <= length file /\ bytes_of file (rng d) = l
  end.
Lemma desc_ok_val : forall {B} (file : list B) d v, desc_ok file d v -> val_of file d = v.
Proof.
  intros B file [p s] [[|x l]|] H; cbn [desc_ok fst snd] in H.
  - injection H as -> ->. unfold val_of, bytes_of. cbn. reflexivity.
  - destruct H as (H1 & H2 & H3). unfold val_of. rewrite H3.
    assert (valid_of (p, s) = true) as ->; [|reflexivity].
    unfold valid_of. cbn [fst snd]. cbn [length] in H1. subst s. apply orb_true_r.
  - injection H as -> ->. reflexivity.
Qed.
Lemma bytes_of_app : forall {B} (f g : list B) r, snd r <= length f -> bytes_of (f ++ g) r = bytes_of f r.
Proof.
  intros B f g [a b] H. unfold bytes_of. cbn [fst snd] in *. rewrite skipn_app, firstn_app, skipn_length.
  destruct (Nat.le_gt_cases b a) as [L|L].
  - replace (b - a) with 0 by lia. reflexivity.
  - replace (b - a - (length f - a)) with 0 by lia. cbn [firstn]. apply app_nil_r.
Qed.
Lemma desc_ok_app : forall {B} (f g : list B) d v, desc_ok f d v -> desc_ok (f ++ g) d v.
Proof.
  intros B f g d [[|x l]|] H; cbn [desc_ok] in *; auto. destruct H as (H1 & H2 & H3).
  repeat split; auto; [rewrite app_length; lia|]. rewrite bytes_of_app; auto.
Qed.

(* ---- writing ---- *)
Definition padded {B} (z : B) (b : list B) : list B := b ++ repeat z (pad (length b) PAGE_BUFFER_ALIGNMENT).
Lemma fold_write : forall {B} (z : B) bufs file, fold_left (do_write_buffer z) bufs file = file ++ concat (map (padded z) bufs).
Proof.
  induction bufs as [|b t IH]; intros file; cbn [fold_left map concat]; [now rewrite app_nil_r|].
  rewrite IH. unfold do_write_buffer, padded. now rewrite <- !app_assoc.
Qed.
Definition starts (ds : list (nat * nat)) : list nat := map fst (filter (fun d => 0 <? snd d) ds).
Lemma starts_app : forall a b, starts (a ++ b) = starts a ++ starts b.
Proof. intros. unfold starts. now rewrite filter_app, map_app. Qed.
Definition lo_hi (lo hi : nat) (ds : list (nat * nat)) : Prop :=
  StronglySorted le (starts ds) /\ Forall (fun s => lo <= s /\ s < hi) (starts ds).
Lemma sorted_app : forall (a b : list nat) m, StronglySorted le a -> StronglySorted le b -> Forall (fun x => x <= m) a -> Forall (fun x => m <= x) b -> StronglySorted le (a ++ b).
Proof.
  induction a as [|x t IH]; intros b m Ha Hb La Lb; cbn [app]; auto.
  inversion_clear Ha as [|? ? H1 H2]. inversion_clear La as [|? ? H3 H4]. constructor; [eauto|].
  rewrite Forall_app. split; auto. eapply Forall_impl; [|exact Lb]. cbn. intros; lia.
Qed.
Lemma lo_hi_app : forall lo m hi a b, lo <= m -> m <= hi -> lo_hi lo m a -> lo_hi m hi b -> lo_hi lo hi (a ++ b).
Proof.
  intros lo m hi a b L1 L2 [A1 A2] [B1 B2]. unfold lo_hi. rewrite starts_app. split.
  - apply sorted_app with m; auto; (eapply Forall_impl; [|eassumption]); cbn; intros; lia.
  - apply Forall_app; split; (eapply Forall_impl; [|eassumption]); cbn; intros; lia.
Qed.
Lemma lo_hi_nil : forall lo hi, lo_hi lo hi [].
Proof. split; constructor. Qed.
Lemma lo_hi_weak : forall lo hi lo' hi' ds, lo' <= lo -> hi <= hi' -> lo_hi lo hi ds -> lo_hi lo' hi' ds.
Proof. intros lo hi lo' hi' ds L1 L2 [A B]. split; auto. eapply Forall_impl; [|exact B]. cbn. intros; lia. Qed.

(* one step of adding buffers: the new buffers, what they add to the file *)
Definition added {B} (z : B) (o o' : outofline B) (bufs : list (list B)) : Prop :=
  oo_buffers o' = oo_buffers o ++ bufs /\ oo_alignment o' = oo_alignment o /\
  oo_position o' = oo_position o + length (concat (map (padded z) bufs)).
Lemma added_trans : forall {B} (z : B) o1 o2 o3 a b, added z o1 o2 a -> added z o2 o3 b -> added z o1 o3 (a ++ b).
Proof.
  intros B z o1 o2 o3 a b (A1 & A2 & A3) (B1 & B2 & B3). unfold added.
  rewrite B1, A1, B2, A2, B3, A3, map_app, concat_app, app_length, app_assoc. repeat split; lia.
Qed.
Lemma write_one_spec : forall {B} (z : B) data w v o d o', oo_alignment o = PAGE_BUFFER_ALIGNMENT ->
  fst w <= snd w -> snd w <= length data -> write_one data w v o = (d, o') ->
  exists bufs, added z o o' bufs /\ lo_hi (oo_position o) (oo_position o') [d] /\
    forall base, length base = oo_position o ->
    desc_ok (base ++ concat (map (padded z) bufs)) d (if v then Some (firstn (snd w - fst w) (skipn (fst w) data)) else None).
Proof.
  intros B z data [a b] v o d o' HA L1 L2 H. cbn [fst snd] in *. unfold write_one in H. cbn [fst snd] in H.
  destruct v.
  - destruct (0 <? b - a) eqn:E.
    + apply Nat.ltb_lt in E. unfold add_buffer in H. injection H as <- <-.
      set (buf := firstn (b - a) (skipn a data)). assert (LB : length buf = b - a).
      { unfold buf. rewrite firstn_length, skipn_length. lia. }
      exists [buf]. split; [|split].
      * unfold added. cbn [oo_buffers oo_alignment oo_position map concat]. repeat split.
        rewrite app_nil_r. unfold padded. rewrite app_length, repeat_length, HA. lia.
      * unfold lo_hi, starts. cbn [filter snd]. assert (0 <? b - a = true) as -> by (apply Nat.ltb_lt; lia). cbn [map fst].
        split; repeat constructor. cbn [oo_position]. lia.
      * intros base HB. destruct buf as [|x l] eqn:EB; [cbn [length] in LB; lia|]. rewrite <- EB in *. 
        assert (Q : desc_ok (base ++ concat (map (padded z) [buf])) (oo_position o, b - a) (Some buf)); [|rewrite EB in *; exact Q].
        rewrite EB at 2. cbn [desc_ok]. rewrite <- EB. cbn [fst snd map concat]. rewrite app_nil_r. unfold padded.
        rewrite !app_length. repeat split; [lia|lia|].
        unfold bytes_of, rng. cbn [fst snd]. rewrite <- HB, skipn_app, skipn_all, Nat.sub_diag. cbn [skipn app].
        replace (length base + (b - a) - length base) with (length buf) by lia.
        rewrite firstn_app, firstn_all, Nat.sub_diag. cbn [firstn]. apply app_nil_r.
    + apply Nat.ltb_ge in E. injection H as <- <-. exists []. split; [|split].
      * unfold added. cbn. rewrite app_nil_r. repeat split; lia.
      * apply lo_hi_nil.
      * intros base HB. assert (firstn (b - a) (skipn a data) = []) as -> by (replace (b - a) with 0 by lia; reflexivity). reflexivity.
  - injection H as <- <-. exists []. split; [|split].
    + unfold added. cbn. rewrite app_nil_r. repeat split; lia.
    + apply lo_hi_nil.
    + reflexivity.
Qed.
Lemma added_le : forall {B} (z : B) o o' bufs, added z o o' bufs -> oo_position o <= oo_position o'.
Proof. intros B z o o' bufs (_ & _ & H). lia. Qed.
Lemma write_loop_spec : forall {B} (z : B) data l o ds o', oo_alignment o = PAGE_BUFFER_ALIGNMENT ->
  Forall (fun p => fst (fst p) <= snd (fst p) /\ snd (fst p) <= length data) l -> write_loop data l o = (ds, o') ->
  exists bufs, added z o o' bufs /\ lo_hi (oo_position o) (oo_position o') ds /\
    forall base, length base = oo_position o ->
    Forall2 (desc_ok (base ++ concat (map (padded z) bufs))) ds
      (map (fun p : (nat * nat) * bool => if snd p then Some (firstn (snd (fst p) - fst (fst p)) (skipn (fst (fst p)) data)) else None) l).
Proof.
  intros B z data l. induction l as [|[w v] t IH]; intros o ds o' HA HF H; cbn [write_loop] in H.
  - injection H as <- <-. exists []. split; [|split].
    + unfold added. cbn. rewrite app_nil_r. repeat split; lia.
    + apply lo_hi_nil.
    + intros. constructor.
  - inversion_clear HF as [|? ? [W1 W2] HF']. cbn [fst snd] in W1, W2.
    destruct (write_one data w v o) as [d o1] eqn:E1. destruct (write_loop data t o1) as [ds2 o2] eqn:E2. injection H as <- <-.
    destruct (write_one_spec z _ _ _ _ _ _ HA W1 W2 E1) as (b1 & A1 & S1 & D1).
    assert (HA1 : oo_alignment o1 = PAGE_BUFFER_ALIGNMENT) by (destruct A1 as (_ & -> & _); auto).
    destruct (IH _ _ _ HA1 HF' E2) as (b2 & A2 & S2 & D2).
    pose proof (added_le _ _ _ _ A1). pose proof (added_le _ _ _ _ A2).
    exists (b1 ++ b2). split; [eapply added_trans; eauto|]. split.
    + change (d :: ds2) with ([d] ++ ds2). eapply lo_hi_app; [| |exact S1|exact S2]; lia.
    + intros base HB. rewrite map_app, concat_app, app_assoc. cbn [map fst snd]. constructor.
      * apply desc_ok_app. auto.
      * apply D2. rewrite app_length, HB. destruct A1 as (_ & _ & ->). reflexivity.
Qed.
Lemma write_bins_spec : forall {B} (z : B) a o ds o', oo_alignment o = PAGE_BUFFER_ALIGNMENT -> array_ok a -> write_bins a o = (ds, o') ->
  exists bufs, added z o o' bufs /\ lo_hi (oo_position o) (oo_position o') ds /\
    forall base, length base = oo_position o -> Forall2 (desc_ok (base ++ concat (map (padded z) bufs))) ds (values_of a).
Proof.
  intros B z a o ds o' HA [W L] H. unfold write_bins in H. eapply write_loop_spec in H; eauto.
  rewrite Forall_forall in *. intros [w v] I. apply in_combine_l in I. cbn [fst snd]. auto.
Qed.
Lemma encode_batch_spec : forall {B} (z : B) cols o dss o', oo_alignment o = PAGE_BUFFER_ALIGNMENT -> Forall array_ok cols -> encode_batch cols o = (dss, o') ->
  exists bufs, added z o o' bufs /\ Forall (lo_hi (oo_position o) (oo_position o')) dss /\
    forall base, length base = oo_position o -> Forall2 (fun ds a => Forall2 (desc_ok (base ++ concat (map (padded z) bufs))) ds (values_of a)) dss cols.
Proof.
  intros B z cols. induction cols as [|c t IH]; intros o dss o' HA HF H; cbn [encode_batch] in H.
  - injection H as <- <-. exists []. split; [|split].
    + unfold added. cbn. rewrite app_nil_r. repeat split; lia.
    + constructor.
    + intros. constructor.
  - inversion_clear HF as [|? ? HC HF'].
    destruct (write_bins c o) as [d o1] eqn:E1. destruct (encode_batch t o1) as [ds2 o2] eqn:E2. injection H as <- <-.
    destruct (write_bins_spec z _ _ _ _ HA HC E1) as (b1 & A1 & S1 & D1).
    assert (HA1 : oo_alignment o1 = PAGE_BUFFER_ALIGNMENT) by (destruct A1 as (_ & -> & _); auto).
    destruct (IH _ _ _ HA1 HF' E2) as (b2 & A2 & S2 & D2).
    pose proof (added_le _ _ _ _ A1). pose proof (added_le _ _ _ _ A2).
    exists (b1 ++ b2). split; [eapply added_trans; eauto|]. split.
    + constructor; [eapply lo_hi_weak; [| |exact S1]; lia|]. eapply Forall_impl; [|exact S2]. intros. eapply lo_hi_weak; [| |eassumption]; lia.
    + intros base HB. rewrite map_app, concat_app, app_assoc. constructor.
      * specialize (D1 base HB). clear -D1. induction D1; constructor; auto. now apply desc_ok_app.
      * apply D2. rewrite app_length, HB. destruct A1 as (_ & _ & ->). reflexivity.
Qed.
Lemma write_batch_spec : forall {B} (z : B) file cols pages dss file', Forall array_ok cols -> write_batch z file cols pages = (dss, file') ->
  exists ext, file' = file ++ ext ++ pages /\ Forall (lo_hi (length file) (length file')) dss /\
    Forall2 (fun ds a => Forall2 (desc_ok file') ds (values_of a)) dss cols.
Proof.
  intros B z file cols pages dss file' HF H. unfold write_batch in H.
  destruct (encode_batch cols (oo_new (length file) PAGE_BUFFER_ALIGNMENT)) as [ds o] eqn:E. injection H as <- <-.
  destruct (encode_batch_spec z _ (oo_new (length file) PAGE_BUFFER_ALIGNMENT) _ _ eq_refl HF E) as (bufs & (A1 & _ & A3) & S & D).
  cbn [oo_new oo_buffers oo_position app] in A1, A3, S, D.
  rewrite fold_write, A1. exists (concat (map (padded z) bufs)). repeat split.
  - now rewrite app_assoc.
  - eapply Forall_impl; [|exact S]. intros. eapply lo_hi_weak; [| |eassumption]; [lia|]. rewrite A3, !app_length. lia.
  - specialize (D file eq_refl). clear -D. induction D as [|x y l l' H1 _ IH]; constructor; auto. clear -H1. induction H1; constructor; auto. now apply desc_ok_app.
Qed.
Lemma nth_combine_app : forall (a b : list (list (nat * nat))) i, length a = length b ->
  nth i (map (fun p => fst p ++ snd p) (combine a b)) [] = nth i a [] ++ nth i b [].
Proof.
  induction a as [|x t IH]; intros [|y u] i H; try discriminate; destruct i; cbn [combine map nth fst snd]; auto.
Qed.
(* the values of column i of a batch *)
Definition col_values {B} (i : nat) (cols : list (binarray B)) : list (option (list B)) := nth i (map values_of cols) [].
Lemma F2_length : forall {A B} (R : A -> B -> Prop) l l', Forall2 R l l' -> length l = length l'.
Proof. induction 1; cbn [length]; auto. Qed.
Lemma F2_nth : forall {B} file i (dss : list (list (nat * nat))) (cols : list (binarray B)),
  Forall2 (fun ds a => Forall2 (desc_ok file) ds (values_of a)) dss cols -> Forall2 (desc_ok file) (nth i dss []) (col_values i cols).
Proof.
  intros B file i dss cols H. revert i. induction H as [|x y l l' H1 _ IH]; intros [|i]; cbn [nth col_values map]; auto; try constructor. apply IH.
Qed.
Lemma write_file_spec : forall {B} (z : B) n batches file dss file', Forall (fun b => length (fst b) = n /\ Forall array_ok (fst b)) batches ->
  write_file z n file batches = (dss, file') ->
  length dss = n /\ length file <= length file' /\ (forall d v, desc_ok file d v -> desc_ok file' d v) /\ forall i,
    lo_hi (length file) (length file') (nth i dss []) /\
    Forall2 (desc_ok file') (nth i dss []) (flat_map (fun b => col_values i (fst b)) batches).
Proof.
  intros B z n batches. induction batches as [|[cols pages] t IH]; intros file dss file' HF H; cbn [write_file] in H.
  - injection H as <- <-. rewrite repeat_length. repeat split; auto.
    + rewrite nth_repeat. constructor.
    + rewrite nth_repeat. constructor.
    + rewrite nth_repeat. constructor.
  - inversion_clear HF as [|? ? [HL HC] HF']. cbn [fst] in HL, HC.
    destruct (write_batch z file cols pages) as [ds1 f1] eqn:E1. destruct (write_file z n f1 t) as [ds2 f2] eqn:E2. injection H as <- <-.
    destruct (write_batch_spec _ _ _ _ _ _ HC E1) as (ext & X1 & X2 & X3).
    destruct (IH _ _ _ HF' E2) as (L & LE & M & Y).
    assert (L1 : length ds1 = n) by (rewrite (F2_length _ _ _ X3); auto).
    assert (LF : length file <= length f1) by (rewrite X1, app_length; lia).
    assert (M1 : forall d v, desc_ok file d v -> desc_ok f1 d v) by (intros; rewrite X1; now apply desc_ok_app).
    repeat split.
    + rewrite map_length, combine_length. lia.
    + lia.
    + auto.
    + destruct (Y i) as [Y1 _]. rewrite nth_combine_app by lia. assert (lo_hi (length file) (length f1) (nth i ds1 [])).
      { destruct (Nat.lt_ge_cases i (length ds1)) as [G|G]; [|rewrite nth_overflow by lia; apply lo_hi_nil].
        rewrite Forall_forall in X2. apply X2. now apply nth_In. }
      apply (lo_hi_app _ _ _ _ _ LF LE H Y1).
    + destruct (Y i) as [Y1 _]. rewrite nth_combine_app by lia. assert (lo_hi (length file) (length f1) (nth i ds1 [])).
      { destruct (Nat.lt_ge_cases i (length ds1)) as [G|G]; [|rewrite nth_overflow by lia; apply lo_hi_nil].
        rewrite Forall_forall in X2. apply X2. now apply nth_In. }
      apply (lo_hi_app _ _ _ _ _ LF LE H Y1).
    + destruct (Y i) as [_ Y2]. rewrite nth_combine_app by lia. cbn [flat_map fst]. apply Forall2_app; auto.
      eapply (F2_nth f1 i) in X3. clear -X3 M. induction X3; constructor; auto.
Qed.

(* ---- reading ---- *)
Definition sl {A} (a n : nat) (l : list A) : list A := firstn n (skipn a l).
Lemma sl_map : forall {A C} (f : A -> C) a n l, map f (sl a n l) = sl a n (map f l).
Proof. intros. unfold sl. now rewrite <- firstn_map, <- skipn_map. Qed.
Lemma sl_length : forall {A} a n (l : list A), a + n <= length l -> length (sl a n l) = n.
Proof. intros. unfold sl. rewrite firstn_length, skipn_length. lia. Qed.
Lemma sl_app : forall {A} a n m (l : list A), sl a n l ++ sl (a + n) m l = sl a (n + m) l.
Proof.
  intros. unfold sl. rewrite <- skipn_skipn'.
  generalize (skipn a l) as r. intros r. rewrite <- (firstn_skipn n r) at 3. rewrite firstn_app.
  destruct (Nat.le_gt_cases n (length r)) as [G|G].
  - rewrite firstn_firstn. replace (Nat.min (n + m) n) with n by lia. f_equal. rewrite firstn_length. f_equal. lia.
  - rewrite (firstn_all2 (n := n) r) by lia. rewrite (skipn_all2 (n := n) r) by lia. rewrite !firstn_nil. rewrite !firstn_all2 by lia. reflexivity.
Qed.
Lemma skipn_sl : forall {A} a n m (l : list A), skipn m (sl a n l) = sl (a + m) (n - m) l.
Proof. intros. unfold sl. rewrite skipn_firstn_comm. now rewrite skipn_skipn'. Qed.
Lemma firstn_sl : forall {A} a n m (l : list A), m <= n -> firstn m (sl a n l) = sl a m l.
Proof. intros. unfold sl. rewrite firstn_firstn. now replace (Nat.min m n) with m by lia. Qed.

Lemma windows_from : forall {B} (bs : list (list B)) pre,
  map (fun w => firstn (snd w - fst w) (skipn (fst w) (pre ++ concat bs))) (windows2 (offsets_from (length pre) bs)) = bs /\
  length (windows2 (offsets_from (length pre) bs)) = length bs.
Proof.
  induction bs as [|b t IH]; intros pre; cbn [offsets_from windows2 concat]; [split; reflexivity|].
  specialize (IH (pre ++ b)). rewrite app_length in IH. rewrite <- app_assoc in IH.
  assert (E : exists r, offsets_from (length pre + length b) t = (length pre + length b) :: r) by (destruct t; eexists; reflexivity).
  destruct E as [r E]. rewrite E in *. cbn [map length fst snd] in *. destruct IH as [I1 I2]. split; [|now rewrite I2]. f_equal; auto.
  rewrite skipn_app, skipn_all, Nat.sub_diag. cbn [skipn app].
  replace (length pre + length b - length pre) with (length b) by lia. rewrite firstn_app, firstn_all, Nat.sub_diag. cbn [firstn]. apply app_nil_r.
Qed.
Lemma combine_map_l : forall {A C D} (f : A -> C) (l : list A) (r : list D), combine (map f l) r = map (fun p => (f (fst p), snd p)) (combine l r).
Proof. induction l as [|x t IH]; intros [|y r]; cbn [map combine]; auto. now rewrite IH. Qed.
Lemma all_true : forall v, forallb (fun b : bool => b) v = true -> v = repeat true (length v).
Proof. induction v as [|[] t IH]; cbn; intros H; auto; [now rewrite <- IH|discriminate]. Qed.
Lemma decode_values : forall {B} (bs : list (list B)) v, length v = length bs ->
  values_of (decode_task (bs, if forallb (fun b : bool => b) v then None else Some v)) =
  map (fun p => if snd p : bool then Some (fst p) else None) (combine bs v).
Proof.
  intros B bs v L. destruct (windows_from bs []) as [W1 W2]. cbn [length app] in W1, W2.
  assert (N : nulls_of (decode_task (bs, if forallb (fun b : bool => b) v then None else Some v)) = v).
  { unfold nulls_of, decode_task. cbn [ba_nulls ba_offsets fst snd]. destruct (forallb (fun b => b) v) eqn:E; auto.
    rewrite W2, <- L. symmetry. now apply all_true. }
  unfold values_of. rewrite N. cbn [ba_data ba_offsets decode_task fst].
  pose proof (combine_map_l (fun w : range => firstn (snd w - fst w) (skipn (fst w) (concat bs))) (windows2 (offsets_from 0 bs)) v) as C.
  rewrite W1 in C. rewrite C, map_map. reflexivity.
Qed.

(* drain_validity takes the front of the queue *)
Lemma drain_validity_spec : forall q n, n <= length (concat q) ->
  exists q', drain_validity q n = Done (firstn n (concat q), q') /\ concat q' = skipn n (concat q).
Proof.
  induction q as [|x t IH]; intros n L; cbn [drain_validity concat] in *.
  - cbn [length] in L. replace n with 0 by lia. exists []. split; reflexivity.
  - destruct (n =? 0) eqn:E0; [apply Nat.eqb_eq in E0; subst; exists (x :: t); split; reflexivity|].
    apply Nat.eqb_neq in E0. rewrite app_length in L. destruct (n <? length x) eqn:E.
    + apply Nat.ltb_lt in E. exists (skipn n x :: t). cbn [concat]. rewrite firstn_app, skipn_app.
      replace (n - length x) with 0 by lia. cbn [firstn skipn]. rewrite app_nil_r. split; reflexivity.
    + apply Nat.ltb_ge in E. destruct (IH (n - length x)) as (q' & Q1 & Q2); [lia|]. rewrite Q1. cbn [rbind fst snd].
      exists q'. rewrite firstn_app, skipn_app, (firstn_all2 x), (skipn_all2 x) by lia. split; auto.
Qed.

Section Reader.
Context {B : Type}.
Variable file : list B.
Variable io : list range -> res (list (list B)).
(* the store answers the requests for consecutive descriptions of a page *)
Definition answers (ds : list (nat * nat)) : Prop :=
  forall a n, io (map rng (sl a n ds)) = Done (map (bytes_of file) (map rng (sl a n ds))).
Definition pinv (p : bpage B) : Prop :=
  answers (bp_descs p) /\ bp_rows_drained p <= bp_rows_loaded p /\ bp_rows_loaded p <= num_rows p /\
  bp_loaded p = map (fun d => bytes_of file (rng d)) (sl (bp_rows_drained p) (bp_rows_loaded p - bp_rows_drained p) (bp_descs p)) /\
  concat (bp_validity p) = map valid_of (sl (bp_rows_drained p) (bp_rows_loaded p - bp_rows_drained p) (bp_descs p)).
Definition pvals (p : bpage B) : list (option (list B)) := map (val_of file) (bp_descs p).

Lemma page_wait_ok : forall p need, pinv p -> bp_rows_loaded p <= need + 1 ->
  exists p', page_wait io p need = Done p' /\ pinv p' /\ bp_descs p' = bp_descs p /\ bp_rows_drained p' = bp_rows_drained p /\
    bp_rows_loaded p' = Nat.min (need + 1) (num_rows p).
Proof.
  intros p need (A & D1 & D2 & PL & PV) L. unfold page_wait.
  set (stop := Nat.min (need + 1) (num_rows p)). set (start := bp_rows_loaded p).
  assert (LS : start <= stop) by (unfold start, stop; lia).
  assert (stop <? start = false) as -> by (apply Nat.ltb_ge; auto).
  fold (sl start (stop - start) (bp_descs p)). change (fun d : nat * nat => (fst d, fst d + snd d)) with rng.
  rewrite (A start (stop - start)). cbn [rbind]. eexists. split; [reflexivity|]. cbn [bp_descs bp_rows_drained bp_rows_loaded].
  repeat split; auto; cbn [bp_descs bp_rows_drained bp_rows_loaded bp_loaded bp_validity].
  - unfold start in *. lia.
  - unfold num_rows. cbn [bp_descs]. unfold stop, num_rows. lia.
  - rewrite PL, map_map, <- map_app. fold start. f_equal.
    replace start with (bp_rows_drained p + (start - bp_rows_drained p)) at 2 by (unfold start; lia).
    rewrite sl_app. f_equal. unfold start in *. lia.
  - rewrite concat_app, PV. cbn [concat]. rewrite app_nil_r. change (fun d : nat * nat => negb (fst d =? 1) || negb (snd d =? 0)) with valid_of.
    rewrite <- map_app. fold start. f_equal.
    replace start with (bp_rows_drained p + (start - bp_rows_drained p)) at 2 by (unfold start; lia).
    rewrite sl_app. f_equal. unfold start in *. lia.
Qed.
Lemma combine_vals : forall ds, map (fun p : list B * bool => if snd p then Some (fst p) else None)
  (combine (map (fun d => bytes_of file (rng d)) ds) (map valid_of ds)) = map (val_of file) ds.
Proof. induction ds as [|d t IH]; cbn [map combine fst snd]; auto. rewrite IH. reflexivity. Qed.
Lemma page_drain_ok : forall p n, pinv p -> bp_rows_drained p + n <= bp_rows_loaded p ->
  exists task p', page_drain p n = Done (task, p') /\ pinv p' /\ values_of (decode_task task) = sl (bp_rows_drained p) n (pvals p) /\
    bp_descs p' = bp_descs p /\ bp_rows_drained p' = bp_rows_drained p + n /\ bp_rows_loaded p' = bp_rows_loaded p.
Proof.
  intros p n (A & D1 & D2 & PL & PV) L. unfold page_drain. unfold num_rows in D2.
  assert (LL : length (bp_loaded p) = bp_rows_loaded p - bp_rows_drained p) by (rewrite PL, map_length, sl_length; lia).
  assert (LV : length (concat (bp_validity p)) = bp_rows_loaded p - bp_rows_drained p) by (rewrite PV, map_length, sl_length; lia).
  assert (length (bp_loaded p) <? n = false) as -> by (apply Nat.ltb_ge; lia).
  destruct (drain_validity_spec (bp_validity p) n) as (q & Q1 & Q2); [lia|]. rewrite Q1. cbn [rbind fst snd].
  do 2 eexists. split; [reflexivity|]. cbn [bp_descs bp_rows_drained bp_rows_loaded]. repeat split; auto;
    cbn [bp_descs bp_rows_drained bp_rows_loaded bp_loaded bp_validity]; try (unfold num_rows; cbn [bp_descs]; lia).
  - rewrite PL, skipn_map, skipn_sl. do 2 f_equal. lia.
  - rewrite Q2, PV, skipn_map, skipn_sl. do 2 f_equal. lia.
  - rewrite decode_values.
    + rewrite PL, PV, !firstn_map, !firstn_sl by lia. rewrite combine_vals. unfold pvals. now rewrite sl_map.
    + rewrite !firstn_length. lia.
Qed.

(* loading k rows from the start of the first page *)
Fixpoint upto (k : nat) (ps ps' : list (bpage B)) : Prop :=
  match ps, ps' with
  | [], [] => True
  | p :: t, p' :: t' => pinv p' /\ bp_descs p' = bp_descs p /\ bp_rows_drained p' = bp_rows_drained p /\
                        bp_rows_loaded p' = Nat.max (bp_rows_loaded p) (Nat.min k (num_rows p)) /\ upto (k - num_rows p) t t'
  | _, _ => False
  end.
Lemma upto_0 : forall ps, Forall pinv ps -> upto 0 ps ps.
Proof. induction 1; cbn [upto]; auto. rewrite Nat.min_0_l, Nat.max_0_r. repeat split; auto; apply H. Qed.
Definition first_loaded (ps : list (bpage B)) : nat := match ps with [] => 0 | p :: _ => bp_rows_loaded p end.
Definition untouched (p : bpage B) : Prop := bp_rows_loaded p = 0.
Lemma wait_pages_ok : forall ps need f, Forall pinv ps -> Forall untouched (tl ps) -> f <= need -> first_loaded ps <= need + 1 - f ->
  exists ps', wait_pages io need f ps = Done ps' /\ upto (need + 1 - f) ps ps'.
Proof.
  induction ps as [|p t IH]; intros need f HI HU L LF; cbn [wait_pages].
  - exists []. split; auto. exact Logic.I.
  - inversion_clear HI as [|? ? HP HT]. cbn [tl first_loaded] in HU, LF.
    assert (HN : f + num_rows p <= need -> exists t', wait_pages io need (f + num_rows p) t = Done t' /\ upto (need + 1 - f - num_rows p) t t').
    { intros G. replace (need + 1 - f - num_rows p) with (need + 1 - (f + num_rows p)) by lia. apply IH; auto.
      - destruct t; [constructor|inversion_clear HU; auto].
      - destruct t as [|q u]; cbn [first_loaded]; [lia|]. inversion_clear HU as [|? ? U _]. rewrite U. lia. }
    destruct (0 <? num_rows p - bp_rows_loaded p) eqn:E.
    + apply Nat.ltb_lt in E. assert ((need <? f) || (num_rows p =? 0) = false) as ->.
      { apply orb_false_iff. rewrite Nat.ltb_ge, Nat.eqb_neq. lia. }
      destruct (page_wait_ok p (Nat.min (num_rows p - 1) (need - f)) HP) as (p' & W1 & W2 & W3 & W4 & W5); [lia|].
      rewrite W1. cbn [rbind fst snd]. rewrite W5. 
      destruct (need <? f + Nat.min (Nat.min (num_rows p - 1) (need - f) + 1) (num_rows p)) eqn:E2.
      * apply Nat.ltb_lt in E2. eexists. split; [reflexivity|]. cbn [upto]. repeat split; auto; try apply W2; [lia|].
        replace (need + 1 - f - num_rows p) with 0 by lia. now apply upto_0.
      * apply Nat.ltb_ge in E2. replace (Nat.min (Nat.min (num_rows p - 1) (need - f) + 1) (num_rows p)) with (num_rows p) in * by lia.
        destruct (HN E2) as (t' & T1 & T2). rewrite T1. cbn [rbind]. eexists. split; [reflexivity|]. cbn [upto].
        repeat split; auto; try apply W2. lia.
    + apply Nat.ltb_ge in E. cbn [rbind fst snd]. assert (bp_rows_loaded p = num_rows p) by (destruct HP as (_ & _ & G & _); lia).
      destruct (need <? f + num_rows p) eqn:E2.
      * apply Nat.ltb_lt in E2. eexists. split; [reflexivity|]. cbn [upto]. repeat split; auto; try apply HP; [lia|].
        replace (need + 1 - f - num_rows p) with 0 by lia. now apply upto_0.
      * apply Nat.ltb_ge in E2. destruct (HN E2) as (t' & T1 & T2). rewrite T1. cbn [rbind]. eexists. split; [reflexivity|]. cbn [upto].
        repeat split; auto; try apply HP. lia.
Qed.

(* between two batches: everything loaded has been drained *)
Definition idle (d : nat) (ps : list (bpage B)) : Prop :=
  match ps with
  | [] => d = 0
  | p :: t => pinv p /\ bp_rows_loaded p = d /\ bp_rows_drained p = d /\ Forall pinv t /\ Forall (fun q => bp_rows_loaded q = 0 /\ bp_rows_drained q = 0) t
  end.
Lemma drained_0 : forall q, pinv q -> bp_rows_loaded q = 0 -> bp_rows_drained q = 0.
Proof. intros q (_ & H & _) E. lia. Qed.
Definition allvals (ps : list (bpage B)) : list (option (list B)) := flat_map pvals ps.
Lemma pvals_length : forall p, length (pvals p) = num_rows p.
Proof. intros. unfold pvals, num_rows. apply map_length. Qed.
Lemma upto_0_back : forall ps ps', Forall pinv ps -> Forall (fun q => bp_rows_loaded q = 0 /\ bp_rows_drained q = 0) ps -> upto 0 ps ps' ->
  Forall pinv ps' /\ Forall (fun q => bp_rows_loaded q = 0 /\ bp_rows_drained q = 0) ps' /\ allvals ps' = allvals ps.
Proof.
  induction ps as [|p t IH]; intros [|p' t'] H1 H2 U; cbn [upto] in U; try contradiction.
  - repeat split; constructor.
  - destruct U as (U1 & U2 & U3 & U4 & U5). inversion_clear H1 as [|? ? _ HT]. inversion_clear H2 as [|? ? [Z1 Z2] ZT].
    destruct (IH t' HT ZT U5) as (I1 & I2 & I3). rewrite Nat.min_0_l, Nat.max_0_r in U4. repeat split.
    + constructor; auto.
    + constructor; auto. lia.
    + cbn [allvals flat_map]. fold (allvals t'). fold (allvals t). rewrite I3. f_equal. unfold pvals. now rewrite U2.
Qed.
Lemma idle_of : forall ps, Forall pinv ps -> Forall (fun q => bp_rows_loaded q = 0 /\ bp_rows_drained q = 0) ps -> idle 0 ps.
Proof. intros [|p t] H1 H2; cbn [idle]; auto. inversion_clear H1. inversion_clear H2 as [|? ? [Z1 Z2] ZT]. repeat split; auto; apply H. Qed.
Lemma drain_pages_ok : forall ps ps' d k popped, idle d ps -> d <= k -> k <= length (allvals ps) -> upto k ps ps' ->
  exists ts ps'' po d', drain_pages (k - d) ps' popped = Done (ts, ps'', po) /\ idle d' ps'' /\ po + d' = popped + k /\
    concat (map values_of ts) = firstn (k - d) (skipn d (allvals ps)) /\ skipn d' (allvals ps'') = skipn k (allvals ps).
Proof.
  induction ps as [|p t IH]; intros ps' d k popped HI L LT HU.
  - cbn [idle] in HI. subst d. cbn [allvals flat_map length] in LT. replace k with 0 by lia. destruct ps'; [|contradiction].
    exists [], [], popped, 0. repeat split; auto.
  - destruct ps' as [|p' t']; [contradiction|]. cbn [upto] in HU. destruct HU as (U1 & U2 & U3 & U4 & U5).
    cbn [idle] in HI. destruct HI as (I1 & I2 & I3 & I4 & I5). cbn [allvals flat_map] in *. fold (allvals t) in *.
    rewrite app_length, pvals_length in LT. assert (DN : d <= num_rows p) by (destruct I1 as (_ & _ & G & _); lia).
    assert (RN : num_rows p' = num_rows p) by (unfold num_rows; now rewrite U2).
    assert (PV : pvals p' = pvals p) by (unfold pvals; now rewrite U2).
    assert (U4' : bp_rows_loaded p' = Nat.min k (num_rows p)) by lia. clear U4.
    cbn [drain_pages]. destruct (k - d =? 0) eqn:E0.
    + apply Nat.eqb_eq in E0. assert (k = d) by lia. subst k. rewrite E0. 
      assert (UT : upto 0 t t') by (replace 0 with (d - num_rows p) by lia; auto).
      destruct (upto_0_back t t' I4 I5 UT) as (X1 & X2 & X3).
      exists [], (p' :: t'), popped, d. repeat split; auto; try apply U1; try lia. cbn [allvals flat_map]. fold (allvals t'). now rewrite PV, X3.
    + apply Nat.eqb_neq in E0. set (take := Nat.min (k - d) (rows_left p')).
      assert (ET : take = Nat.min k (num_rows p) - d) by (unfold take, rows_left; lia).
      destruct (page_drain_ok p' take U1) as (task & p2 & D1 & D2 & D3 & D4 & D5 & D6); [lia|].
      rewrite D1. cbn [rbind]. unfold rows_left at 1. assert (RN2 : num_rows p2 = num_rows p) by (unfold num_rows in *; congruence).
      rewrite RN2, D5. rewrite U3, I3, PV in *.
      destruct (num_rows p - (d + take) =? 0) eqn:E1.
      * apply Nat.eqb_eq in E1. assert (KN : num_rows p <= k) by lia.
        assert (idle 0 t) as IT by (apply idle_of; auto).
        destruct (IH t' 0 (k - num_rows p) (popped + num_rows p) IT ltac:(lia) ltac:(lia) U5) as (ts & ps2 & po & d' & R1 & R2 & R3 & R4 & R5).
        replace (k - num_rows p - 0) with (k - d - take) in * by lia. rewrite R1. cbn [rbind].
        exists (decode_task task :: ts), ps2, po, d'. repeat split; auto; [lia| |].
        -- cbn [map concat]. rewrite D3, R4. unfold sl. rewrite skipn_app. rewrite pvals_length. replace (d - num_rows p) with 0 by lia.
           rewrite firstn_app, skipn_length, pvals_length. rewrite !(firstn_all2 (skipn d (pvals p))) by (rewrite skipn_length, pvals_length; lia).
           f_equal. cbn [skipn]. f_equal. lia.
        -- rewrite R5. rewrite skipn_app, pvals_length. rewrite (skipn_all2 (n := k)) by (rewrite pvals_length; lia). reflexivity.
      * apply Nat.eqb_neq in E1. assert (KN : k < num_rows p) by lia. assert (take = k - d) by lia.
        assert (UT : upto 0 t t') by (replace 0 with (k - num_rows p) by lia; auto).
        destruct (upto_0_back t t' I4 I5 UT) as (X1 & X2 & X3).
        exists [decode_task task], (p2 :: t'), popped, k. repeat split; auto; try apply D2; try lia.
        -- cbn [map concat]. rewrite D3, app_nil_r. unfold sl. rewrite skipn_app, firstn_app, skipn_length, pvals_length.
           replace (k - d - (num_rows p - d)) with 0 by lia. cbn [firstn]. rewrite app_nil_r. congruence.
        -- cbn [allvals flat_map]. fold (allvals t'). rewrite X3. f_equal. f_equal. unfold pvals in *. congruence.
Qed.
Lemma sumn_cons : forall n t, sumn (n :: t) = n + sumn t. Proof. reflexivity. Qed.
Lemma read_batches_ok : forall sizes c d, idle d (ch_scheduled c) -> ch_rows_drained c = ch_rows_popped c + d ->
  Forall (fun n => 0 < n) sizes -> sumn sizes <= length (skipn d (allvals (ch_scheduled c))) ->
  exists out, read_batches io c sizes = Done out /\ map (fun b => concat (map values_of b)) out = chunks sizes (skipn d (allvals (ch_scheduled c))).
Proof.
  induction sizes as [|n t IH]; intros c d HI HD HS HL; cbn [read_batches chunks].
  - exists []. split; reflexivity.
  - inversion_clear HS as [|? ? N0 NT]. rewrite sumn_cons, skipn_length in HL.
    assert (PI : Forall pinv (ch_scheduled c)) by (destruct (ch_scheduled c); cbn [idle] in HI; [constructor|destruct HI as (? & _ & _ & ? & _); constructor; auto]).
    destruct (wait_pages_ok (ch_scheduled c) (ch_rows_drained c + n - 1) (ch_rows_popped c)) as (ps' & W1 & W2); auto.
    + destruct (ch_scheduled c); cbn [idle tl] in *; [constructor|]. destruct HI as (_ & _ & _ & _ & Z). eapply Forall_impl; [|exact Z]. unfold untouched. tauto.
    + lia.
    + destruct (ch_scheduled c); cbn [idle first_loaded] in *; [lia|]. destruct HI as (_ & -> & _). lia.
    + unfold child_wait. rewrite W1. cbn [rbind]. unfold child_drain. cbn [ch_scheduled ch_rows_popped ch_rows_drained].
      replace (ch_rows_drained c + n - 1 + 1 - ch_rows_popped c) with (d + n) in W2 by lia.
      destruct (drain_pages_ok (ch_scheduled c) ps' d (d + n) (ch_rows_popped c) HI ltac:(lia) ltac:(lia) W2) as (ts & ps2 & po & d' & R1 & R2 & R3 & R4 & R5).
      replace (d + n - d) with n in * by lia. rewrite R1. cbn [rbind fst snd].
      assert (SK : skipn d' (allvals ps2) = skipn n (skipn d (allvals (ch_scheduled c)))).
      { now rewrite R5, skipn_skipn'. }
      destruct (IH (Build_child ps2 (ch_rows_drained c + n) po) d' R2) as (out & O1 & O2); cbn [ch_scheduled ch_rows_drained ch_rows_popped]; auto.
      * lia.
      * rewrite SK, !skipn_length. lia.
      * cbn [ch_scheduled] in *. rewrite O1. cbn [rbind]. eexists. split; [reflexivity|]. cbn [map]. rewrite R4, O2, SK. reflexivity.
Qed.
Lemma allvals_new : forall pages, allvals (map new_page pages) = map (val_of file) (concat pages).
Proof. induction pages as [|p t IH]; cbn [map allvals flat_map concat]; auto. fold (allvals (map new_page t)). now rewrite IH, map_app. Qed.
Lemma read_column_ok : forall pages sizes, Forall answers pages -> Forall (fun n => 0 < n) sizes -> sumn sizes <= length (concat pages) ->
  exists out, read_column io pages sizes = Done out /\ map (fun b => concat (map values_of b)) out = chunks sizes (map (val_of file) (concat pages)).
Proof.
  intros pages sizes HA HS HL. unfold read_column.
  destruct (read_batches_ok sizes (Build_child (map new_page pages) 0 0) 0) as (out & O1 & O2); cbn [ch_scheduled ch_rows_drained ch_rows_popped skipn] in *; auto.
  - apply idle_of.
    + clear HL. induction HA as [|p t H _ IH]; cbn [map]; constructor; auto. split; [exact H|]. cbn. repeat split; lia.
    + clear. induction pages; cbn [map]; constructor; auto.
  - rewrite allvals_new, map_length. exact HL.
  - exists out. rewrite O1, O2, allvals_new. auto.
Qed.
End Reader.

(* ---- the two stores ---- *)
Definition in_file {B} (file : list B) (d : nat * nat) : Prop := fst d + snd d <= length file.
Lemma sl_In : forall {A} a n (l : list A) x, In x (sl a n l) -> In x l.
Proof.
  intros A a n l x H. unfold sl in H. assert (In x (skipn a l)) by (rewrite <- (firstn_skipn n (skipn a l)); apply in_or_app; auto).
  rewrite <- (firstn_skipn a l). apply in_or_app; auto.
Qed.
Lemma buffer_answers : forall {B} (file : list B) ds, Forall (in_file file) ds -> answers file (buffer_io file) ds.
Proof.
  intros B file ds H a n. unfold buffer_io.
  assert (HS : Forall (in_file file) (sl a n ds)) by (rewrite Forall_forall in *; intros x I; apply H; eapply sl_In; eauto).
  set (l := sl a n ds) in *. clearbody l. clear H ds.
  assert (E : sequence_opt (map (fun r : range => if (fst r <=? snd r) && (snd r <=? length file) then Some (firstn (snd r - fst r) (skipn (fst r) file)) else None) (map rng l))
              = Some (map (bytes_of file) (map rng l))); [|now rewrite E].
  induction HS as [|d t H _ IH]; cbn [map sequence_opt]; auto. unfold rng at 1 2 3 4 5 6. cbn [fst snd]. unfold in_file in H.
  assert (fst d <=? fst d + snd d = true) as -> by (apply Nat.leb_le; lia).
  assert (fst d + snd d <=? length file = true) as -> by (apply Nat.leb_le; lia). cbn [andb]. rewrite IH. reflexivity.
Qed.
Lemma by_start_map : forall l, StronglySorted le (map fst l) -> by_start (map rng l).
Proof.
  induction l as [|d t IH]; cbn [map]; intros H; [constructor|]. inversion_clear H as [|? ? H1 H2]. constructor; [apply IH; auto|].
  rewrite Forall_map. rewrite Forall_map in H2. exact H2.
Qed.
Lemma sorted_sl : forall a n (l : list nat), StronglySorted le l -> StronglySorted le (sl a n l).
Proof.
  intros a n l H. unfold sl. assert (P : forall u v : list nat, StronglySorted le (u ++ v) -> StronglySorted le u /\ StronglySorted le v).
  { induction u as [|x u IH]; intros v G; cbn [app] in *; [split; [constructor|auto]|]. inversion_clear G as [|? ? G1 G2].
    destruct (IH v G1) as [I1 I2]. split; auto. constructor; auto. now apply Forall_app in G2. }
  rewrite <- (firstn_skipn a l) in H. apply P in H. destruct H as [_ H].
  rewrite <- (firstn_skipn n (skipn a l)) in H. apply P in H. tauto.
Qed.
Lemma file_answers : forall {B} (file : list B) bs ds, Forall (in_file file) ds -> Forall (fun d => 0 < snd d) ds -> StronglySorted le (map fst ds) ->
  answers file (file_io file bs) ds.
Proof.
  intros B file bs ds H P S a n. unfold file_io. apply submit_request_exact.
  - apply by_start_map. rewrite sl_map. now apply sorted_sl.
  - rewrite Forall_map, Forall_forall in *. intros d I. apply sl_In in I. specialize (H d I). specialize (P d I). unfold in_file in H. unfold rng. cbn [fst snd]. lia.
Qed.
Lemma desc_in_file : forall {B} (file : list B) ds vs, 1 <= length file \/ ~ In None vs -> Forall2 (desc_ok file) ds vs -> Forall (in_file file) ds.
Proof.
  intros B file ds vs H F. induction F as [|d v l l' H1 _ IH]; constructor.
  - destruct v as [[|x t]|]; cbn [desc_ok] in H1; unfold in_file; [subst; cbn; lia|tauto|subst; cbn]. destruct H as [H|H]; [lia|]. exfalso. apply H. left; auto.
  - apply IH. destruct H as [H|H]; [left; auto|]. right. intros I. apply H. right; auto.
Qed.
Lemma vals_ok : forall {B} (file : list B) ds vs, Forall2 (desc_ok file) ds vs -> map (val_of file) ds = vs.
Proof. induction 1; cbn [map]; auto. f_equal; auto. now apply desc_ok_val. Qed.
Lemma Forall_pages : forall {A} (P : A -> Prop) pages, Forall P (concat pages) -> Forall (Forall P) pages.
Proof. induction pages as [|p t IH]; cbn [concat]; intros H; constructor; apply Forall_app in H; tauto. Qed.
Lemma sorted_pages : forall (pages : list (list nat)), StronglySorted le (concat pages) -> Forall (StronglySorted le) pages.
Proof.
  induction pages as [|p t IH]; cbn [concat]; intros H; constructor.
  - induction p as [|x p IHp]; [constructor|]. cbn [app] in H. inversion_clear H as [|? ? H1 H2]. constructor; auto. now apply Forall_app in H2.
  - apply IH. induction p as [|x p IHp]; auto. cbn [app] in H. inversion_clear H. auto.
Qed.

(* what is written by any number of batches comes back, whatever the pages and the
   batch sizes: from a buffer in memory *)
Theorem roundtrip_memory : forall {B} (z : B) n batches dss file i pages sizes,
  Forall (fun b => length (fst b) = n /\ Forall array_ok (fst b)) batches -> write_file z n [] batches = (dss, file) ->
  concat pages = nth i dss [] -> Forall (fun k => 0 < k) sizes -> sumn sizes <= length (nth i dss []) -> 1 <= length file ->
  exists out, read_column (buffer_io file) pages sizes = Done out /\
    map (fun b => concat (map values_of b)) out = chunks sizes (flat_map (fun b => col_values i (fst b)) batches).
Proof.
  intros B z n batches dss file i pages sizes HB HW HP HS HL H1.
  destruct (write_file_spec z n batches [] dss file HB HW) as (_ & _ & _ & Y). destruct (Y i) as [_ F].
  destruct (read_column_ok file (buffer_io file) pages sizes) as (out & O1 & O2); auto.
  - assert (G : Forall (Forall (in_file file)) pages) by (apply Forall_pages; rewrite HP; eapply desc_in_file; [left; exact H1|exact F]).
    eapply Forall_impl; [|exact G]. intros ds. apply buffer_answers.
  - now rewrite HP.
  - exists out. rewrite O1, O2, HP, (vals_ok _ _ _ F). auto.
Qed.
(* and from a file, when no value is null or empty *)
Theorem roundtrip_file : forall {B} (z : B) n batches dss file i pages sizes block_size,
  Forall (fun b => length (fst b) = n /\ Forall array_ok (fst b)) batches -> write_file z n [] batches = (dss, file) ->
  concat pages = nth i dss [] -> Forall (fun k => 0 < k) sizes -> sumn sizes <= length (nth i dss []) ->
  Forall (fun v => v <> None /\ v <> Some []) (flat_map (fun b => col_values i (fst b)) batches) ->
  exists out, read_column (file_io file block_size) pages sizes = Done out /\
    map (fun b => concat (map values_of b)) out = chunks sizes (flat_map (fun b => col_values i (fst b)) batches).
Proof.
  intros B z n batches dss file i pages sizes bs HB HW HP HS HL HV.
  destruct (write_file_spec z n batches [] dss file HB HW) as (_ & _ & _ & Y). destruct (Y i) as [[S _] F].
  assert (PS : Forall (fun d => 0 < snd d) (nth i dss [])).
  { clear -F HV. induction F as [|d v l l' H1 _ IH]; constructor; inversion_clear HV as [|? ? [V1 V2] HV']; auto.
    destruct v as [[|y t]|]; try congruence. cbn [desc_ok length] in H1. lia. }
  assert (SS : StronglySorted le (map fst (nth i dss []))).
  { unfold starts in S. replace (filter (fun d => 0 <? snd d) (nth i dss [])) with (nth i dss []) in S; auto.
    clear -PS. induction PS as [|d l H _ IH]; cbn [filter]; auto. assert (0 <? snd d = true) as -> by (apply Nat.ltb_lt; auto). now rewrite <- IH. }
  destruct (read_column_ok file (file_io file bs) pages sizes) as (out & O1 & O2); auto.
  - rewrite Forall_forall. intros ds I.
    assert (G1 : Forall (Forall (in_file file)) pages).
    { apply Forall_pages. rewrite HP. eapply desc_in_file; [right|exact F]. intros J. rewrite Forall_forall in HV. apply HV in J. tauto. }
    assert (G2 : Forall (Forall (fun d : nat * nat => 0 < snd d)) pages) by (apply Forall_pages; now rewrite HP).
    assert (G3 : Forall (StronglySorted le) (map (map fst) pages)) by (apply sorted_pages; rewrite <- concat_map, HP; auto).
    rewrite Forall_forall in G1, G2, G3. apply file_answers; auto. apply G3. now apply in_map.
  - now rewrite HP.
  - exists out. rewrite O1, O2, HP, (vals_ok _ _ _ F). auto.
Qed.
