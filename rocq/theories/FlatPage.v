From Coq Require Import List Arith NArith Bool Lia ZifyBool ZifyN ZifyNat.
From Verif Require Import Lib PageModel FlatModel FlatProofs.
Import ListNotations.
Local Open Scope nat_scope.

Fixpoint t_ok (t : fty) : Prop := match t with TFixed w => 0 < w | TBool => True | TFsl t' d => t_ok t' /\ 0 < d end.
(* no bitmap anywhere: no booleans, no validity *)
Fixpoint no_bits (t : fty) (arrays : list farr) : Prop :=
  Forall (fun a => a_valid a = None) arrays /\ match t with TFixed _ => True | TBool => False | TFsl t' _ => no_bits t' (children arrays) end.
(* the values without the validity of the outermost level *)
Definition raw (t : fty) (a : farr) : list lval :=
  match t, a with
  | TFixed _, AFixed vals _ => map VBytes vals
  | TBool, ABool vals _ => map VBool vals
  | TFsl t' d, AFsl n c _ => map VList (groups d n (logical t' c))
  | _, _ => []
  end.
Definition data_of (t : fty) (arrays : list farr) (n : nat) : block :=
  match t with
  | TFixed w => BFixed (8 * w) (flat_data arrays) n
  | TBool => BFixed 1 (pack_bits (bool_data arrays)) n
  | TFsl t' d => BFsl (from_arrays t' (children arrays) (n * d)) d
  end.
Definition inner (t : fty) : encoder := match t with TFsl t' d => XFsl (choose t') d | _ => XValue end.
Lemma choose_inner : forall t, choose t = XBasic (inner t).
Proof. now destruct t. Qed.
Lemma logical_raw : forall t a, logical t a = mask_with (a_valid a) (raw t a).
Proof. intros t a. destruct t, a; try (cbn; destruct valid; [cbn; now destruct l|reflexivity]); reflexivity. Qed.
Lemma mask_length : forall v l, match v with Some b => length b = length l | None => True end -> length (mask_with v l) = length l.
Proof. intros [b|] l H; [|reflexivity]. cbn [mask_with]. rewrite map_length, combine_length. lia. Qed.
Lemma raw_length : forall t a, f_wf t a -> length (raw t a) = a_len a.
Proof. intros t a W. destruct t, a; cbn [f_wf] in W; try contradiction; cbn [raw a_len]; rewrite map_length; [reflexivity|reflexivity|apply groups_length]. Qed.
Lemma valid_length : forall t a, f_wf t a -> match a_valid a with Some b => length b = a_len a | None => True end.
Proof. intros t a W. destruct t, a; cbn [f_wf] in W; try contradiction; cbn [a_valid a_len]; tauto. Qed.
Lemma logical_length : forall t a, f_wf t a -> length (logical t a) = a_len a.
Proof.
  intros t a W. rewrite logical_raw, mask_length; [now apply raw_length|]. pose proof (valid_length t a W) as V. rewrite (raw_length t a W). exact V.
Qed.
Lemma valid_bits_length : forall t a, f_wf t a -> length (valid_bits a) = a_len a.
Proof. intros t a W. unfold valid_bits. pose proof (valid_length t a W). destruct (a_valid a); [assumption|now rewrite repeat_length]. Qed.
Lemma mask_true : forall l, map (fun p : bool * lval => if fst p then snd p else VNull) (combine (repeat true (length l)) l) = l.
Proof. induction l as [|x l IH]; [reflexivity|]. cbn. now rewrite IH. Qed.
Lemma logical_bits : forall t a, f_wf t a -> logical t a = mask_with (Some (valid_bits a)) (raw t a).
Proof.
  intros t a W. rewrite logical_raw. unfold valid_bits. destruct (a_valid a); [reflexivity|]. cbn [mask_with]. rewrite <- (raw_length t a W). now rewrite mask_true.
Qed.
Lemma combine_app' {A B} : forall (a a' : list A) (b b' : list B), length a = length b -> combine (a ++ a') (b ++ b') = combine a b ++ combine a' b'.
Proof. induction a as [|x a IH]; intros a' b b' H; destruct b; cbn in *; try discriminate; [reflexivity|]. f_equal. apply IH. lia. Qed.
Lemma all_bits : forall t arrays, Forall (f_wf t) arrays -> flat_map (logical t) arrays = mask_with (Some (flat_map valid_bits arrays)) (flat_map (raw t) arrays).
Proof.
  intros t arrays F. induction F as [|a arrays W F IH]; [reflexivity|]. cbn [flat_map]. rewrite IH, (logical_bits t a W). cbn [mask_with].
  rewrite combine_app', map_app; [reflexivity|]. now rewrite (valid_bits_length t), (raw_length t).
Qed.
Lemma sum_bits : forall t arrays, Forall (f_wf t) arrays -> length (flat_map valid_bits arrays) = sumn (map a_len arrays).
Proof. intros t arrays F. induction F as [|a arrays W F IH]; [reflexivity|]. cbn [flat_map map sumn]. now rewrite app_length, IH, (valid_bits_length t). Qed.
Lemma sum_raw : forall t arrays, Forall (f_wf t) arrays -> length (flat_map (raw t) arrays) = sumn (map a_len arrays).
Proof. intros t arrays F. induction F as [|a arrays W F IH]; [reflexivity|]. cbn [flat_map map sumn]. now rewrite app_length, IH, (raw_length t). Qed.
Lemma sum_logical : forall t arrays, Forall (f_wf t) arrays -> length (flat_map (logical t) arrays) = sumn (map a_len arrays).
Proof. intros t arrays F. induction F as [|a arrays W F IH]; [reflexivity|]. cbn [flat_map map sumn]. now rewrite app_length, IH, (logical_length t). Qed.
Lemma all_none : forall t arrays, forallb (fun a => match a_valid a with None => true | Some _ => false end) arrays = true -> flat_map (logical t) arrays = flat_map (raw t) arrays.
Proof.
  intros t arrays. induction arrays as [|a arrays IH]; intros H; [reflexivity|]. cbn [forallb flat_map] in *. apply andb_true_iff in H as [H1 H2].
  rewrite (IH H2), logical_raw. destruct (a_valid a); [discriminate|reflexivity].
Qed.
Lemma all_false : forall b, length (filter negb b) = length b -> b = repeat false (length b).
Proof.
  induction b as [|x b IH]; intros H; [reflexivity|]. destruct x; cbn [filter negb length repeat] in *.
  - exfalso. assert (Q : forall l, length (filter negb l) <= length l). { clear. induction l as [|y l IH]; [cbn; lia|]. destruct y; cbn; lia. } pose proof (Q b). lia.
  - f_equal. apply IH. lia.
Qed.
Lemma mask_false : forall n l, length l = n -> map (fun p : bool * lval => if fst p then snd p else VNull) (combine (repeat false n) l) = repeat VNull n.
Proof. induction n as [|n IH]; intros l H; [reflexivity|]. destruct l; [discriminate|]. cbn. rewrite IH; [reflexivity|]. now injection H. Qed.
Lemma sel_repeat {A} : forall rs skip k n (x : A), ranges_in n rs -> skip + k <= rows_of rs -> sel rs skip k (repeat x n) = repeat x k.
Proof.
  intros rs skip k n x F B. assert (L : length (sel rs skip k (repeat x n)) = k) by (apply sel_length; rewrite ?repeat_length; assumption).
  rewrite <- L at 2. assert (A1 : forall y, In y (sel rs skip k (repeat x n)) -> y = x) by (intros y Y; apply sel_In in Y; now apply repeat_spec in Y).
  clear L. induction (sel rs skip k (repeat x n)) as [|y l IH]; [reflexivity|]. cbn [length repeat]. rewrite (A1 y) by now left. f_equal. apply IH. intros z Z. apply A1. now right.
Qed.
(* masking commutes with selecting *)
Lemma combine_nth_map {A B} : forall (a : list A) (b : list B) x y, length a = length b -> combine a b = map (fun i => (nth i a x, nth i b y)) (seq 0 (length a)).
Proof.
  induction a as [|p a IH]; intros b x y H; destruct b as [|q b]; cbn in *; try discriminate; [reflexivity|]. f_equal. rewrite (IH b x y) by lia.
  rewrite <- seq_shift, map_map. reflexivity.
Qed.
Lemma list_nth_map {A} : forall (a : list A) x, a = map (fun i => nth i a x) (seq 0 (length a)).
Proof. induction a as [|p a IH]; intros x; [reflexivity|]. cbn [length seq map nth]. f_equal. rewrite <- seq_shift, map_map. apply IH. Qed.
Lemma sel_combine {A B} : forall rs skip k (a : list A) (b : list B), length a = length b -> combine (sel rs skip k a) (sel rs skip k b) = sel rs skip k (combine a b).
Proof.
  intros rs skip k a b H. destruct a as [|x a']. { destruct b; [|discriminate]. unfold sel. assert (Z : forall T, flat_map (fun r : range => slice (fst r) (snd r) (@nil T)) rs = []).
    { intros T. induction rs as [|r rs IH]; [reflexivity|]. cbn [flat_map]. rewrite IH. unfold slice. now rewrite skipn_nil, firstn_nil. } cbn [combine]. now rewrite !Z, !skipn_nil, !firstn_nil. }
  destruct b as [|y b']; [discriminate|]. set (a := x :: a') in *. set (b := y :: b') in *.
  rewrite (combine_nth_map a b x y H), sel_map. rewrite (list_nth_map a x) at 1. rewrite (list_nth_map b y) at 1. rewrite !sel_map, <- H.
  induction (sel rs skip k (seq 0 (length a))) as [|i s IH]; [reflexivity|]. cbn [map combine]. now rewrite IH.
Qed.
Lemma sel_mask : forall rs skip k b l, length b = length l -> sel rs skip k (mask_with (Some b) l) = mask_with (Some (sel rs skip k b)) (sel rs skip k l).
Proof. intros. cbn [mask_with]. now rewrite sel_map, sel_combine. Qed.
Lemma nulls_logical : forall t n, logical t (null_arr t n) = repeat VNull n.
Proof. intros t n. destruct t; cbn [null_arr logical mask_with]; apply mask_false; rewrite map_length, ?repeat_length; try reflexivity. apply groups_length. Qed.
Lemma nulls_len : forall t n, a_len (null_arr t n) = n.
Proof. intros t n. destruct t; cbn [null_arr a_len]; rewrite ?repeat_length; reflexivity. Qed.

(* ---- what is wanted of a written block ---- *)
Definition reads (t : fty) (n : nat) (bits : Prop) (L : list lval) (e : enc) (i : nat) (own : list (list N)) (raw_only : bool) : Prop :=
  forall bufs, (forall k b, nth_error own k = Some b -> nth_error bufs (i + k) = Some b) ->
  exists s, sched_of bufs e = Some s /\
  forall rs skip m, ranges_in n rs -> skip + m <= rows_of rs -> (aligned rs skip m \/ bits) ->
  exists b a, decode (schedule_ranges s rs) skip m = Some b /\ num_values b = m /\ into_arrow t b = Some a /\ a_len a = m /\
              (raw_only = true -> logical t a = mask_with (a_valid a) (raw t a) /\ a_valid a = None) /\ logical t a = sel rs skip m L.
Definition written (x : encoder) (b : block) (t : fty) (n : nat) (bits : Prop) (L : list lval) (raw_only : bool) : Prop :=
  forall i, exists y e, encode x b i = Some (y, e, i + length (buffers y)) /\ reads t n bits L e i (buffers y) raw_only.

Lemma logical_set : forall t a v, (match t, a with TFixed _, AFixed _ _ => True | TBool, ABool _ _ => True | TFsl _ _, AFsl _ _ _ => True | _, _ => False end) -> logical t (set_valid a v) = mask_with (Some v) (raw t a).
Proof. intros t a v H. destruct t, a; try contradiction; reflexivity. Qed.
Lemma into_shape : forall t b a, into_arrow t b = Some a -> match t, a with TFixed _, AFixed _ _ => True | TBool, ABool _ _ => True | TFsl _ _, AFsl _ _ _ => True | _, _ => False end.
Proof.
  intros t b. revert t. induction b; intros t a H; cbn [into_arrow] in H.
  - injection H as <-. now destruct t.
  - destruct (into_arrow t b) as [a'|] eqn:E; [|discriminate]. specialize (IHb t a' E). destruct (read_bits nulls (a_len a')); [|discriminate]. injection H as <-. destruct t, a'; exact IHb.
  - destruct t; [destruct (n * w <=? length data); [injection H as <-; exact Logic.I|discriminate]|destruct (read_bits data n); [injection H as <-; exact Logic.I|discriminate]|discriminate].
  - destruct t; try discriminate. destruct (d =? 0); [discriminate|]. destruct (into_arrow t b); [injection H as <-; exact Logic.I|discriminate].
Qed.
Lemma set_len : forall a v, a_len (set_valid a v) = a_len a.
Proof. now destruct a. Qed.

(* ---- validity around a block ---- *)
Lemma wrap_ok : forall t arrays n, Forall (f_wf t) arrays -> n = sumn (map a_len arrays) -> 0 < n ->
  written (inner t) (data_of t arrays n) t n (no_bits t arrays) (flat_map (raw t) arrays) true ->
  written (choose t) (from_arrays t arrays n) t n (no_bits t arrays) (flat_map (logical t) arrays) false.
Proof.
  intros t arrays n F NE P D i. rewrite choose_inner.
  assert (FA : from_arrays t arrays n = match extract_nulls arrays n with NAll => BAllNull n | NSome bits => BNullable (data_of t arrays n) (pack_bits bits) | NNone => data_of t arrays n end).
  { destruct arrays as [|a0 arr]; [cbn in NE; lia|]. destruct n as [|n']; [lia|]. destruct t; cbn [from_arrays Nat.eqb]; destruct (extract_nulls _ _); reflexivity. }
  rewrite FA. unfold extract_nulls. destruct (forallb _ arrays) eqn:AN.
  - (* no validity *)
    destruct (D i) as (y & e & E & R). exists y, (ENoNulls e). rewrite (all_none t arrays AN). split.
    + cbn [encode]. assert (NB : match data_of t arrays n with BAllNull _ => False | BNullable _ _ => False | _ => True end) by (destruct t; exact Logic.I).
      destruct (data_of t arrays n) eqn:DE; try contradiction; rewrite E; reflexivity.
    + intros bufs B. destruct (R bufs B) as (s & S & RR). exists (SNone s). cbn [sched_of]. rewrite S. split; [reflexivity|].
      intros rs skip m R1 R2 R3. destruct (RR rs skip m R1 R2 R3) as (b & a & A1 & A2 & A3 & A4 & _ & A6). exists b, a. cbn [schedule_ranges decode]. repeat split; auto; discriminate.
  - pose proof (sum_bits t arrays F) as SB. rewrite <- NE in SB. destruct (length (filter negb (flat_map valid_bits arrays)) =? n) eqn:AL.
    + (* all null *)
      apply Nat.eqb_eq in AL. rewrite <- SB in AL. pose proof (all_false _ AL) as FF. rewrite SB in FF.
      assert (LN : flat_map (logical t) arrays = repeat VNull n). { rewrite (all_bits t arrays F), FF. cbn [mask_with]. apply mask_false. now rewrite (sum_raw t), NE. }
      exists (BAllNull n), EAllNull. split; [cbn [encode buffers length]; now rewrite Nat.add_0_r|].
      intros bufs B. exists SAll. split; [reflexivity|]. intros rs skip m R1 R2 R3. exists (BAllNull m), (null_arr t m). cbn [schedule_ranges decode num_values into_arrow].
      repeat split; try reflexivity; try discriminate; [apply nulls_len|]. rewrite LN, nulls_logical, sel_repeat; auto.
    + (* some null *)
      set (bits := flat_map valid_bits arrays) in *. destruct (D (S i)) as (y & e & E & R). exists (BNullable y (pack_bits bits)), (ESome (EFlat 1 i) e). split.
      * cbn [encode]. rewrite E. cbn [buffers length]. do 2 f_equal. lia.
      * intros bufs B. destruct (R bufs) as (s & S & RR). { intros k b K. replace (S i + k) with (i + S k) by lia. now apply B. }
        pose proof (B 0 (pack_bits bits) eq_refl) as B0. rewrite Nat.add_0_r in B0. exists (SSome (SBitmap (pack_bits bits)) s). cbn [sched_of]. rewrite B0, S. cbn [Nat.eqb]. split; [reflexivity|].
        intros rs skip m R1 R2 R3.
        assert (R3' : aligned rs skip m). { destruct R3 as [R3|R3]; [exact R3|]. exfalso. assert (Q : Forall (fun a => a_valid a = None) arrays) by (destruct t; apply R3).
          clear - AN Q. induction Q as [|a l Q1 Q IH]; [discriminate|]. cbn [forallb] in AN. rewrite Q1 in AN. auto. }
        destruct (RR rs skip m R1 R2 R3) as (b & a & A1 & A2 & A3 & A4 & A5 & A6). destruct (A5 eq_refl) as [A51 A52].
        assert (SL : length (sel rs skip m bits) = m) by (apply sel_length; [now rewrite SB|exact R2]).
        exists (BNullable b (pack_bits (sel rs skip m bits))), (set_valid a (sel rs skip m bits)). cbn [schedule_ranges decode num_values into_arrow].
        rewrite decode_bits_ok by (try assumption; now rewrite SB). cbn [omap]. rewrite A1, A3, A4.
        rewrite read_pack by now symmetry. cbn [omap]. rewrite set_len. repeat split; auto; try discriminate.
        rewrite logical_set by (eapply into_shape; eauto). rewrite (all_bits t arrays F). fold bits. rewrite sel_mask by (rewrite SB, (sum_raw t); auto).
        rewrite A51, A52 in A6. cbn [mask_with] in A6 |- *. now rewrite A6.
Qed.

(* ---- the three kinds of data ---- *)
Lemma fixed_ok : forall w arrays n, 0 < w -> Forall (f_wf (TFixed w)) arrays -> n = sumn (map a_len arrays) -> 0 < n ->
  written XValue (data_of (TFixed w) arrays n) (TFixed w) n (no_bits (TFixed w) arrays) (flat_map (raw (TFixed w)) arrays) true.
Proof.
  intros w arrays n W F NE P i. cbn [data_of]. exists (BFixed (8 * w) (flat_data arrays) n), (EFlat (8 * w) i). split; [cbn [encode buffers length]; do 2 f_equal; lia|].
  intros bufs B. pose proof (B 0 _ eq_refl) as B0. rewrite Nat.add_0_r in B0. exists (SValue w (flat_data arrays)). split.
  { cbn [sched_of]. rewrite B0. replace (8 * w =? 1) with false by (symmetry; apply Nat.eqb_neq; lia). rewrite (Nat.mul_comm 8 w), Nat.mod_mul, Nat.div_mul by lia. reflexivity. }
  set (vals := flat_map (fun a => match a with AFixed v _ => v | _ => [] end) arrays).
  assert (V1 : flat_data arrays = flat_map (fun v => v) vals).
  { unfold flat_data, vals. clear - F. induction F as [|a l A F IH]; [reflexivity|]. cbn [flat_map]. rewrite flat_map_app, <- IH. f_equal. destruct a; try contradiction. now rewrite flat_map_concat_map, map_id. }
  assert (V2 : flat_map (raw (TFixed w)) arrays = map VBytes vals).
  { unfold vals. clear - F. induction F as [|a l A F IH]; [reflexivity|]. cbn [flat_map]. rewrite map_app, <- IH. destruct a; try contradiction. reflexivity. }
  assert (V3 : forall v, In v vals -> length v = w).
  { unfold vals. intros v X. apply in_flat_map in X as [a [A X]]. rewrite Forall_forall in F. specialize (F a A). destruct a; try contradiction. destruct F as [F _]. rewrite Forall_forall in F. auto. }
  assert (V4 : length vals = n).
  { subst n. unfold vals. clear - F. induction F as [|a l A F IH]; [reflexivity|]. cbn [flat_map map sumn]. rewrite app_length, IH. destruct a; try contradiction. reflexivity. }
  intros rs skip m R1 R2 R3. cbn [schedule_ranges decode]. rewrite value_decode, V1.
  exists (BFixed (8 * w) (sel (scale w rs) (skip * w) (m * w) (flat_map (fun v => v) vals)) m), (AFixed (sel rs skip m vals) None).
  assert (SL : length (sel rs skip m vals) = m) by (apply sel_length; [now rewrite V4|exact R2]).
  split; [reflexivity|]. split; [reflexivity|]. split.
  { cbn [into_arrow]. rewrite (groups_sel _ w) by (auto; now rewrite V4). rewrite map_id. rewrite flat_sel by exact V3. rewrite (flat_length _ w) by (intros v X; apply V3; eapply sel_In; eauto).
    rewrite SL, Nat.leb_refl. reflexivity. }
  split; [exact SL|]. split; [intros _; split; reflexivity|]. cbn [logical mask_with]. now rewrite V2, sel_map.
Qed.
Lemma bool_ok : forall arrays n, Forall (f_wf TBool) arrays -> n = sumn (map a_len arrays) -> 0 < n ->
  written XValue (data_of TBool arrays n) TBool n (no_bits TBool arrays) (flat_map (raw TBool) arrays) true.
Proof.
  intros arrays n F NE P i. cbn [data_of]. exists (BFixed 1 (pack_bits (bool_data arrays)) n), (EFlat 1 i). split; [cbn [encode buffers length]; do 2 f_equal; lia|].
  intros bufs B. pose proof (B 0 _ eq_refl) as B0. rewrite Nat.add_0_r in B0. exists (SBitmap (pack_bits (bool_data arrays))). split; [cbn [sched_of]; now rewrite B0|].
  assert (V2 : flat_map (raw TBool) arrays = map VBool (bool_data arrays)).
  { unfold bool_data. clear - F. induction F as [|a l A F IH]; [reflexivity|]. cbn [flat_map]. rewrite map_app, <- IH. destruct a; try contradiction. reflexivity. }
  assert (V4 : length (bool_data arrays) = n).
  { subst n. unfold bool_data. clear - F. induction F as [|a l A F IH]; [reflexivity|]. cbn [flat_map map sumn]. rewrite app_length, IH. destruct a; try contradiction. reflexivity. }
  intros rs skip m R1 R2 R3. assert (AL : aligned rs skip m) by (destruct R3 as [R3|[_ []]]; exact R3).
  assert (SL : length (sel rs skip m (bool_data arrays)) = m) by (apply sel_length; [now rewrite V4|exact R2]).
  exists (BFixed 1 (pack_bits (sel rs skip m (bool_data arrays))) m), (ABool (sel rs skip m (bool_data arrays)) None). cbn [schedule_ranges decode num_values into_arrow].
  rewrite decode_bits_ok by (try assumption; now rewrite V4). rewrite read_pack by now symmetry. cbn [omap]. repeat split; auto. cbn [logical mask_with]. now rewrite V2, sel_map.
Qed.
Lemma fsl_ok : forall t d arrays n, 0 < d -> Forall (f_wf (TFsl t d)) arrays -> n = sumn (map a_len arrays) -> 0 < n ->
  written (choose t) (from_arrays t (children arrays) (n * d)) t (n * d) (no_bits t (children arrays)) (flat_map (logical t) (children arrays)) false ->
  written (XFsl (choose t) d) (data_of (TFsl t d) arrays n) (TFsl t d) n (no_bits (TFsl t d) arrays) (flat_map (raw (TFsl t d)) arrays) true.
Proof.
  intros t d arrays n D F NE P C i. destruct (C i) as (y & e & E & R). cbn [data_of]. exists (BFsl y d), (EFsl e d). split; [cbn [encode]; rewrite E; reflexivity|].
  intros bufs B. destruct (R bufs B) as (s & S & RR). exists (SFsl s d). split; [cbn [sched_of]; now rewrite S|].
  set (L := flat_map (logical t) (children arrays)) in *.
  assert (V : flat_map (raw (TFsl t d)) arrays = map VList (groups d n L) /\ length L = n * d).
  { subst n. unfold L. clear - F. induction F as [|a l A F [IH1 IH2]]; [split; reflexivity|]. destruct a as [| |k c v]; try contradiction. destruct A as (A1 & A2 & A3).
    cbn [flat_map children map sumn a_len app] in *. fold (children l). rewrite app_length, IH2, (logical_length t c A1), A2. split; [|lia].
    rewrite IH1, groups_app, map_app by now rewrite (logical_length t c A1). reflexivity. }
  destruct V as [V1 V2]. intros rs skip m R1 R2 R3.
  destruct (RR (scale d rs) (skip * d) (m * d)) as (b & a & A1 & A2 & A3 & A4 & _ & A6).
  { now apply scale_in. } { rewrite scale_rows. nia. } { destruct R3 as [R3|[_ R3]]; [left; now apply scale_aligned|now right]. }
  exists (BFsl b d), (AFsl m a None). cbn [schedule_ranges decode num_values into_arrow]. unfold scale in A1. rewrite A1, A2, A3. cbn [omap].
  replace (d =? 0) with false by (symmetry; apply Nat.eqb_neq; lia). rewrite Nat.div_mul by lia. repeat split; auto.
  cbn [logical mask_with]. rewrite A6, V1, sel_map. f_equal. now apply groups_sel_list.
Qed.
Lemma child_wf : forall t d arrays, Forall (f_wf (TFsl t d)) arrays -> Forall (f_wf t) (children arrays) /\ sumn (map a_len (children arrays)) = sumn (map a_len arrays) * d.
Proof.
  intros t d arrays F. induction F as [|a l A F [IH1 IH2]]; [split; [constructor|reflexivity]|]. destruct a as [| |k c v]; try contradiction. destruct A as (A1 & A2 & A3).
  cbn [children flat_map app map sumn a_len]. fold (children l). split; [constructor; assumption|]. rewrite IH2, A2. lia.
Qed.
Lemma page_ok : forall t arrays n, t_ok t -> Forall (f_wf t) arrays -> n = sumn (map a_len arrays) -> 0 < n ->
  written (choose t) (from_arrays t arrays n) t n (no_bits t arrays) (flat_map (logical t) arrays) false.
Proof.
  induction t as [w| |t IH d]; intros arrays n T F NE P; apply wrap_ok; auto.
  - apply fixed_ok; auto.
  - apply bool_ok; auto.
  - destruct T as [T1 T2]. destruct (child_wf t d arrays F) as [C1 C2]. apply (fsl_ok t d); auto. apply IH; auto; [congruence|nia].
Qed.

(* ---- the statements ---- *)
Definition page_rows (t : fty) (arrays : list farr) : nat := sumn (map a_len arrays).
Theorem read_exact : forall t arrays rs skip n, t_ok t -> Forall (f_wf t) arrays -> 0 < page_rows t arrays -> ranges_in (page_rows t arrays) rs -> skip + n <= rows_of rs ->
  aligned rs skip n \/ no_bits t arrays -> read_rows t arrays rs skip n = Some (firstn n (skipn skip (flat_map (fun r => slice (fst r) (snd r) (flat_map (logical t) arrays)) rs))).
Proof.
  intros t arrays rs skip n T F P R1 R2 R3. destruct (page_ok t arrays (page_rows t arrays) T F eq_refl P 0) as (y & e & E & R).
  unfold read_rows, write_page. fold (page_rows t arrays). rewrite E. cbn [obind fst snd]. destruct (R (buffers y)) as (s & S & RR); [auto|]. rewrite S. cbn [obind].
  destruct (RR rs skip n R1 R2 R3) as (b & a & A1 & A2 & A3 & A4 & _ & A6). rewrite A1. cbn [obind]. rewrite A3. cbn [omap]. now rewrite A6.
Qed.
Lemma aligned_one : forall s e skip n, skip + n <= e - s -> aligned [(s, e)] skip n.
Proof. intros. cbn [aligned]. destruct (e - s <=? skip); [exact Logic.I|now right]. Qed.
Lemma aligned_rows : forall idx skip n, aligned (map (fun i => (i, S i)) idx) skip n.
Proof. induction idx as [|i idx IH]; intros skip n; [exact Logic.I|]. cbn [map aligned]. replace (S i - i) with 1 by lia. destruct (1 <=? skip) eqn:E; [apply IH|]. left. apply Nat.leb_gt in E. lia. Qed.
Lemma aligned_zero : forall rs n, aligned rs 0 n.
Proof. induction rs as [|[s e] rs IH]; intros n; [exact Logic.I|]. cbn [aligned]. destruct (e - s <=? 0) eqn:E; [|now left]. replace (0 - (e - s)) with 0 by (apply Nat.leb_le in E; lia). apply IH. Qed.
Lemma firstn_add' {A} : forall n m (l : list A), firstn (n + m) l = firstn n l ++ firstn m (skipn n l).
Proof. induction n as [|n IH]; intros m l; [reflexivity|]. destruct l; cbn [Nat.add firstn skipn app]; [now rewrite firstn_nil|]. now rewrite IH. Qed.
Lemma batches_exact : forall t arrays rs ns skip, t_ok t -> Forall (f_wf t) arrays -> 0 < page_rows t arrays -> ranges_in (page_rows t arrays) rs -> skip + sumn ns <= rows_of rs ->
  (forall k n, k + n <= rows_of rs -> aligned rs k n) \/ no_bits t arrays ->
  read_batches t arrays rs skip ns = Some (firstn (sumn ns) (skipn skip (flat_map (fun r => slice (fst r) (snd r) (flat_map (logical t) arrays)) rs))).
Proof.
  intros t arrays rs ns. induction ns as [|n ns IH]; intros skip T F P R1 R2 R3; [reflexivity|]. cbn [read_batches sumn] in *.
  rewrite (read_exact t arrays rs skip n); auto; [|lia|destruct R3 as [R3|R3]; [left; apply R3; lia|now right]].
  rewrite IH; auto; [|lia]. f_equal. now rewrite <- skipn_skipn', firstn_add'.
Qed.
Theorem scan_exact : forall t arrays s e ns, t_ok t -> Forall (f_wf t) arrays -> s < e -> e <= page_rows t arrays -> sumn ns = e - s ->
  read_batches t arrays [(s, e)] 0 ns = Some (slice s e (flat_map (logical t) arrays)).
Proof.
  intros t arrays s e ns T F S E N. rewrite batches_exact; auto.
  - cbn [flat_map fst snd skipn]. rewrite app_nil_r, N. f_equal. unfold slice. apply firstn_all2. rewrite firstn_length. lia.
  - lia.
  - constructor; [cbn; lia|constructor].
  - unfold rows_of. cbn. lia.
  - left. intros k n K. apply aligned_one. unfold rows_of in K. cbn in K. lia.
Qed.
Lemma rows_single : forall idx, rows_of (map (fun i => (i, S i)) idx) = length idx.
Proof. unfold rows_of. induction idx as [|i idx IH]; [reflexivity|]. cbn [map sumn fst snd length]. rewrite IH. lia. Qed.
Lemma slices_single {A} : forall idx (l : list A) x, Forall (fun i => i < length l) idx -> flat_map (fun r : range => slice (fst r) (snd r) l) (map (fun i => (i, S i)) idx) = map (fun i => nth i l x) idx.
Proof.
  intros idx l x F. induction F as [|i idx I F IH]; [reflexivity|]. cbn [map flat_map fst snd]. rewrite IH. unfold slice. replace (S i - i) with 1 by lia.
  assert (Q : forall k (m : list A), k < length m -> firstn 1 (skipn k m) = [nth k m x]). { induction k as [|k IHk]; intros m L; destruct m; cbn in L; try lia; [reflexivity|]. apply IHk. lia. }
  now rewrite Q.
Qed.
Theorem take_exact : forall t arrays idx ns, t_ok t -> Forall (f_wf t) arrays -> 0 < page_rows t arrays -> Forall (fun i => i < page_rows t arrays) idx -> sumn ns = length idx ->
  read_batches t arrays (map (fun i => (i, S i)) idx) 0 ns = Some (map (fun i => nth i (flat_map (logical t) arrays) VNull) idx).
Proof.
  intros t arrays idx ns T F P I N. rewrite batches_exact; auto.
  - rewrite slices_single with (x := VNull) by (rewrite (sum_logical t) by exact F; exact I). cbn [skipn]. rewrite N. f_equal. apply firstn_all2. rewrite map_length. lia.
  - clear - I. induction I as [|i idx I1 I IH]; constructor; [cbn; lia|exact IH].
  - rewrite rows_single. lia.
  - left. intros k n _. apply aligned_rows.
Qed.
Theorem bytes_exact : forall t arrays rs ns, t_ok t -> Forall (f_wf t) arrays -> 0 < page_rows t arrays -> no_bits t arrays -> ranges_in (page_rows t arrays) rs -> sumn ns = rows_of rs ->
  read_batches t arrays rs 0 ns = Some (flat_map (fun r => slice (fst r) (snd r) (flat_map (logical t) arrays)) rs).
Proof.
  intros t arrays rs ns T F P B R N. rewrite batches_exact; auto; [|lia]. cbn [skipn]. f_equal. apply firstn_all2. rewrite N.
  rewrite (all_length rs); [lia|]. now rewrite (sum_logical t).
Qed.
Theorem whole_exact : forall t arrays rs, t_ok t -> Forall (f_wf t) arrays -> 0 < page_rows t arrays -> ranges_in (page_rows t arrays) rs ->
  read_rows t arrays rs 0 (rows_of rs) = Some (flat_map (fun r => slice (fst r) (snd r) (flat_map (logical t) arrays)) rs).
Proof.
  intros t arrays rs T F P R. rewrite read_exact; auto; [|left; apply aligned_zero]. cbn [skipn]. f_equal. apply firstn_all2. rewrite (all_length rs); [lia|]. now rewrite (sum_logical t).
Qed.
