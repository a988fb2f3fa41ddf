From Coq Require Import List Arith NArith Bool Lia ZifyBool ZifyN ZifyNat.
From Verif Require Import Lib PageModel ListEncModel ListEncProofs SerdeModel SerdeProofs FlatModel FlatProofs FlatPage DColModel DColProofs.
From Verif Require PageProofs BinEncModel BinEncProofs.
Import ListNotations.
Local Open Scope nat_scope.

Lemma k_max_bound : forall k, k_ok k -> (k_max k < 256 ^ N.of_nat (k_bytes k))%N.
Proof.
  intros k K. unfold k_max, k_ok in *. change 256%N with (2 ^ 8)%N. rewrite <- N.pow_mul_r.
  assert (B : (2 ^ (8 * N.of_nat (k_bytes k) - (if k_signed k then 1 else 0)) <= 2 ^ (8 * N.of_nat (k_bytes k)))%N) by (apply N.pow_le_mono_r; lia).
  assert (Z : (2 ^ (8 * N.of_nat (k_bytes k) - (if k_signed k then 1 else 0)) <> 0)%N) by (apply N.pow_nonzero; lia). lia.
Qed.
Lemma le_flat : forall n l, flat_map (le_bytes n) l = concat (map (le_bytes n) l).
Proof. intros. apply flat_map_concat_map. Qed.
Lemma map_inj {A B} : forall (f : A -> B) l l', (forall x y, f x = f y -> x = y) -> map f l = map f l' -> l = l'.
Proof. intros f l. induction l as [|x l IH]; intros [|y l'] I H; cbn in *; try discriminate; [reflexivity|]. injection H as H1 H2. f_equal; auto. Qed.
(* the indices of a page: one buffer, at the front *)
Lemma keys_written : forall kw keys, encode (choose (TFixed kw)) (BFixed (8 * kw) (flat_map (le_bytes kw) keys) (length keys)) 0 =
  Some (BFixed (8 * kw) (flat_map (le_bytes kw) keys) (length keys), ENoNulls (EFlat (8 * kw) 0), 1).
Proof. reflexivity. Qed.
Lemma keys_read : forall k keys rest rs skip n e items m, k_ok k -> 0 < length keys -> Forall (fun x => x < 256 ^ N.of_nat (k_bytes k))%N keys ->
  e = ENoNulls (EFlat (8 * k_bytes k) 0) -> ranges_in (length keys) rs -> skip + n <= rows_of rs ->
  read_keys k {| dp_bufs := flat_map (le_bytes (k_bytes k)) keys :: rest; dp_idx := e; dp_items := items; dp_n := m |} rs skip n = Some (sel rs skip n keys).
Proof.
  intros k keys rest rs skip n e items m K P B -> R1 R2. set (kw := k_bytes k) in *.
  pose (arr := AFixed (map (le_bytes kw) keys) None).
  assert (W : Forall (f_wf (TFixed kw)) [arr]). { constructor; [|constructor]. split; [|exact Logic.I]. apply Forall_forall. intros x X. apply in_map_iff in X as [y [<- _]]. apply le_bytes_length. }
  assert (NB : no_bits (TFixed kw) [arr]) by (repeat constructor).
  destruct (page_ok (TFixed kw) [arr] (length keys) K W) with (i := 0) as (y & e & E & R); [cbn; rewrite map_length; lia|exact P|].
  assert (FA : from_arrays (TFixed kw) [arr] (length keys) = BFixed (8 * kw) (flat_map (le_bytes kw) keys) (length keys)).
  { cbn [from_arrays]. replace (length keys =? 0) with false by (symmetry; apply Nat.eqb_neq; lia). cbn [extract_nulls arr a_valid forallb andb flat_data flat_map]. now rewrite app_nil_r, le_flat. }
  rewrite FA, keys_written in E. assert (EQ : y = BFixed (8 * kw) (flat_map (le_bytes kw) keys) (length keys) /\ e = ENoNulls (EFlat (8 * kw) 0)) by (split; congruence). destruct EQ as [-> ->]. cbn [buffers] in R.
  destruct (R (flat_map (le_bytes kw) keys :: rest)) as (s & S & RR). { intros [|i] b H; cbn [nth_error Nat.add] in *; [exact H|]. destruct i; discriminate. }
  unfold read_keys. cbn [dp_bufs dp_idx]. rewrite S. cbn [obind].
  destruct (RR rs skip n R1 R2 (or_intror NB)) as (b & a & A1 & A2 & A3 & A4 & _ & A6). rewrite A1. cbn [obind].
  assert (BS : exists x q z, b = BFixed x q z).
  { cbn [sched_of nth_error] in S. replace (8 * kw =? 1) with false in S by (symmetry; apply Nat.eqb_neq; unfold k_ok in K; lia).
    destruct ((8 * kw) mod 8 =? 0); [|discriminate]. cbn [omap] in S. injection S as <-. cbn [schedule_ranges decode] in A1. injection A1 as <-. eauto. }
  destruct BS as (x & q & z & ->). fold kw. rewrite A3. cbn [into_arrow] in A3. destruct (z * kw <=? length q); [|discriminate]. injection A3 as <-. f_equal.
  cbn [logical mask_with flat_map app] in A6. unfold arr in A6. cbn [logical mask_with] in A6. rewrite app_nil_r, sel_map in A6. apply map_inj in A6; [|intros ? ? H; now injection H].
  rewrite A6, <- sel_map, map_map. f_equal. rewrite <- (map_id keys) at 2. apply map_ext_in. intros y Y. apply of_le_bytes_le. rewrite Forall_forall in B. now apply B.
Qed.
Lemma all_some_map {A B} : forall (f : A -> option B) g l, (forall x, In x l -> f x = Some (g x)) -> all_some (map f l) = Some (map g l).
Proof. intros f g l H. induction l as [|x l IH]; [reflexivity|]. cbn [map all_some]. rewrite (H x) by now left. rewrite IH by (intros; apply H; now right). reflexivity. Qed.
Lemma nth_error_nth' {A} : forall i (l : list A) x, i < length l -> nth_error l i = Some (nth i l x).
Proof. induction i as [|i IH]; intros [|y l] x H; cbn in *; try lia; [reflexivity|]. apply IH. lia. Qed.
Lemma whole_wanted : forall A (l : list A), PageProofs.wanted l [(0, length l)] = l.
Proof. intros A l. cbn [PageProofs.wanted flat_map fst snd]. unfold slice. cbn [skipn]. rewrite Nat.sub_0_r, firstn_all. apply app_nil_r. Qed.
Lemma block_read : forall k vt b rows, k_ok k -> block_ok k vt b rows -> vt <> VTStr true -> 0 < length rows ->
  exists p, dict_encode vt b = Some p /\ forall rs skip n, ranges_in (length rows) rs -> skip + n <= rows_of rs -> read_page_rows k vt p rs skip n = Some (sel rs skip n rows).
Proof.
  intros k vt b rows K (B1 & B2 & B3 & B4 & B5) NL P.
  assert (KL : length (db_keys b) = length rows) by (rewrite <- B5; now rewrite map_length).
  assert (KB : Forall (fun x => x < 256 ^ N.of_nat (k_bytes k))%N (db_keys b)). { eapply Forall_impl; [|exact B4]. intros x [X _]. pose proof (k_max_bound k K). cbn beta in *. lia. }
  pose proof (dv_length vt _ B2) as DL.
  assert (FIN : forall p, read_items vt p = Some (dv_logical vt (db_vals b)) -> (forall rs skip n, ranges_in (length rows) rs -> skip + n <= rows_of rs -> read_keys k p rs skip n = Some (sel rs skip n (db_keys b))) ->
    forall rs skip n, ranges_in (length rows) rs -> skip + n <= rows_of rs -> read_page_rows k vt p rs skip n = Some (sel rs skip n rows)).
  { intros p I R rs skip n R1 R2. unfold read_page_rows. rewrite I. cbn [obind]. rewrite R by assumption. cbn [obind].
    rewrite (all_some_map _ (fun x => nth (N.to_nat x) (dv_logical vt (db_vals b)) VNull)).
    - now rewrite <- sel_map, B5.
    - intros x X. apply sel_In in X. rewrite Forall_forall in B4. destruct (B4 x X) as [X1 X2]. rewrite DL.
      replace (x <=? k_max k)%N with true by lia. replace (x <? N.of_nat (dv_len (db_vals b)))%N with true by lia. cbn [andb]. apply nth_error_nth'. now rewrite DL. }
  unfold dict_encode. rewrite B1, keys_written. destruct vt as [t|lg], (db_vals b) as [arrs|arrs] eqn:DV; cbn in B2; try contradiction.
  - destruct B2 as [T F]. destruct (page_ok t arrs (dv_len (DFlat arrs)) T F eq_refl B3 1) as (y' & e' & E & R). rewrite E. eexists. split; [reflexivity|]. apply FIN.
    + unfold read_items. cbn [dp_items dp_bufs dp_n buffers]. destruct (R ([flat_map (le_bytes (k_bytes k)) (db_keys b)] ++ buffers y')) as (s & S & RR). { intros i x X. exact X. }
      cbn [app] in *. rewrite S. cbn [obind]. destruct (RR [(0, dv_len (DFlat arrs))] 0 (dv_len (DFlat arrs))) as (bl & a & A1 & A2 & A3 & A4 & _ & A6).
      { constructor; [cbn [fst snd]; lia|constructor]. } { unfold rows_of. cbn [map sumn fst snd]. lia. } { left. apply aligned_zero. }
      rewrite A1. cbn [obind]. rewrite A3. cbn [omap]. rewrite A6. cbn [dv_logical] in *. unfold sel. cbn [flat_map skipn fst snd]. rewrite app_nil_r. f_equal. unfold slice. cbn [skipn].
      rewrite Nat.sub_0_r. rewrite <- DL. now rewrite !firstn_all.
    + intros rs skip n R1 R2. cbn [buffers app]. apply keys_read; auto; try lia; now rewrite KL.
  - destruct lg; [now destruct NL|]. eexists. split; [reflexivity|]. apply FIN.
    + unfold read_items. cbn [dp_items dp_n]. cbn [dv_len dv_logical] in *. rewrite <- strings_length in *. set (st := BinEncProofs.strings_of arrs) in *.
      destruct (BinEncProofs.strings_exact arrs [(0, length st)] 0 (length st) B2) as (d & D1 & _ & D2).
      { split; [constructor; [cbn; unfold st in *; lia|constructor]|constructor]. } { fold st. rewrite whole_wanted. lia. }
      rewrite D1. cbn [omap]. rewrite D2. fold st. rewrite whole_wanted. cbn [Nat.add]. unfold slice. cbn [skipn]. now rewrite Nat.sub_0_r, firstn_all.
    + intros rs skip n R1 R2. cbn [buffers app]. apply keys_read; auto; try lia; now rewrite KL.
Qed.

(* ---- the statements ---- *)
(* arrays whose indices need no wider type: arrow concatenates them, and the index of the null fits the key type *)
Theorem dict_exact : forall cat k vt arrays a rs skip n, cat_ok cat -> k_ok k -> (match vt with VTFlat t => t_ok t | _ => True end) -> vt <> VTStr true ->
  Forall (da_ok k vt) arrays -> 0 < sumn (map da_len arrays) ->
  cat k arrays = Some a -> (da_extract arrays (sumn (map da_len arrays)) <> NNone -> (N.of_nat (null_index (da_vals a)) <= k_max k)%N) ->
  ranges_in (sumn (map da_len arrays)) rs -> skip + n <= rows_of rs ->
  read_dict cat k vt arrays rs skip n = Some (firstn n (skipn skip (flat_map (fun r => slice (fst r) (snd r) (flat_map (da_rows vt) arrays)) rs))).
Proof.
  intros cat k vt arrays a rs skip n C K T NL F P CA FIT R1 R2. destruct (from_arrays_ok cat k vt arrays a C K T F CA P FIT) as (b & B & BO).
  unfold read_dict. rewrite B. cbn [obind]. pose proof (all_rows_length k vt arrays F) as AL.
  destruct (block_read k vt b _ K BO NL) as (p & E & R); [lia|]. rewrite E. cbn [obind]. rewrite AL in R. now apply R.
Qed.

(* ---- arrow's promise can be kept ---- *)
Lemma app_vals_ok : forall vt a b, vals_ok vt a -> vals_ok vt b -> vals_ok vt (app_vals a b) /\ dv_logical vt (app_vals a b) = dv_logical vt a ++ dv_logical vt b /\ dv_len (app_vals a b) = dv_len a + dv_len b.
Proof.
  intros [t|l] [x|x] [y|y] A B; cbn in A, B; try contradiction; cbn [app_vals vals_ok dv_logical dv_len].
  - destruct A as [T A], B as [_ B]. split; [split; [exact T|now apply Forall_app]|]. rewrite flat_map_app, map_app, sumn_app. auto.
  - split; [now apply Forall_app|]. unfold BinEncProofs.strings_of. rewrite map_app, concat_app, map_app, map_app, sumn_app. auto.
Qed.
(* keys that may be too large for their type *)
Definition da_pre (vt : vty) (a : darr) : Prop :=
  vals_ok vt (da_vals a) /\ match da_kvalid a with Some b => length b = length (da_keys a) | None => True end /\
  Forall (fun p : bool * N => fst p = true -> N.to_nat (snd p) < dv_len (da_vals a)) (combine (key_bits a) (da_keys a)).
Lemma app_dict_pre : forall vt a b, da_pre vt a -> da_pre vt b -> da_pre vt (app_dict a b) /\ da_rows vt (app_dict a b) = da_rows vt a ++ da_rows vt b.
Proof.
  intros vt a b (A1 & A2 & A3) (B1 & B2 & B3). destruct (app_vals_ok vt _ _ A1 B1) as (V1 & V2 & V3).
  assert (LA : length (key_bits a) = length (da_keys a)) by (unfold key_bits; destruct (da_kvalid a); [exact A2|apply repeat_length]).
  assert (LB : length (key_bits b) = length (da_keys b)) by (unfold key_bits; destruct (da_kvalid b); [exact B2|apply repeat_length]).
  pose proof (dv_length vt _ A1) as DA. pose proof (dv_length vt _ B1) as DB.
  set (sh := map (fun p : bool * N => if fst p then (snd p + N.of_nat (dv_len (da_vals a)))%N else 0%N) (combine (key_bits b) (da_keys b))).
  assert (CO : combine (key_bits (app_dict a b)) (da_keys (app_dict a b)) = combine (key_bits a) (da_keys a) ++ combine (key_bits b) sh) by (cbn [app_dict key_bits da_kvalid da_keys]; now apply combine_app').
  assert (CS : combine (key_bits b) sh = map (fun p : bool * N => (fst p, if fst p then (snd p + N.of_nat (dv_len (da_vals a)))%N else 0%N)) (combine (key_bits b) (da_keys b))).
  { unfold sh. clear - LB. revert LB. generalize (da_keys b). induction (key_bits b) as [|x l IH]; intros [|y m] H; cbn in *; try discriminate; [reflexivity|]. f_equal. apply IH. lia. }
  split.
  - split; [exact V1|]. split. { cbn [app_dict da_kvalid da_keys]. rewrite !app_length, map_length, combine_length. lia. }
    rewrite CO, CS. cbn [app_dict da_vals]. rewrite V3. apply Forall_app. split.
    + eapply Forall_impl; [|exact A3]. intros p H T. specialize (H T). lia.
    + apply Forall_forall. intros p X. apply in_map_iff in X as [q [<- Q]]. cbn [fst snd]. intros T. rewrite T. rewrite Forall_forall in B3. specialize (B3 q Q T). lia.
  - unfold da_rows at 1. rewrite CO, CS, map_app. cbn [app_dict da_vals]. rewrite V2. f_equal.
    + unfold da_rows. apply map_ext_in. intros p X. rewrite Forall_forall in A3. specialize (A3 p X). destruct (fst p); [|reflexivity]. rewrite app_nth1; [reflexivity|]. rewrite DA. auto.
    + rewrite map_map. unfold da_rows. apply map_ext. intros p. cbn [fst snd]. destruct (fst p); [|reflexivity]. rewrite app_nth2 by lia. f_equal. lia.
Qed.
Lemma fold_dict_pre : forall vt more a, da_pre vt a -> Forall (da_pre vt) more -> da_pre vt (fold_left app_dict more a) /\ da_rows vt (fold_left app_dict more a) = da_rows vt a ++ flat_map (da_rows vt) more.
Proof.
  induction more as [|b more IH]; intros a A F; [cbn [fold_left flat_map]; now rewrite app_nil_r|]. apply Forall_cons_iff in F as [F1 F2]. destruct (app_dict_pre vt a b A F1) as [P1 P2].
  destruct (IH (app_dict a b) P1 F2) as [Q1 Q2]. cbn [fold_left flat_map]. split; [exact Q1|]. now rewrite Q2, P2, app_assoc.
Qed.
Lemma ok_pre : forall k vt a, da_ok k vt a -> da_pre vt a.
Proof. intros k vt a (A1 & A2 & A3). split; [exact A1|]. split; [exact A2|]. eapply Forall_impl; [|exact A3]. intros p H T. now apply H. Qed.
Theorem plain_cat_ok : cat_ok plain_cat.
Proof.
  intros k vt arrays a F H. unfold plain_cat in H. destruct arrays as [|b [|c more]]; [discriminate| |].
  - injection H as <-. apply Forall_cons_iff in F as [F _]. split; [exact F|]. cbn [flat_map]. now rewrite app_nil_r.
  - set (r := fold_left app_dict (c :: more) b) in *. destruct (k_max k <? N.of_nat (dv_len (da_vals r)) - 1)%N eqn:E; [discriminate|]. injection H as <-. apply Forall_cons_iff in F as [F1 F2].
    destruct (fold_dict_pre vt (c :: more) b) as [(P1 & P2 & P3) P4]. { now apply (ok_pre k). } { eapply Forall_impl; [|exact F2]. apply ok_pre. } fold r in P1, P2, P3, P4. split; [|exact P4].
    split; [exact P1|]. split; [exact P2|]. eapply Forall_impl; [|exact P3]. intros p X T. specialize (X T). apply N.ltb_ge in E. split; [lia|exact X].
Qed.
(* casting the keys to a wider type keeps the rows *)
Lemma cast_pairs : forall b (keys : list N), length b = length keys ->
  combine b (map (fun p : bool * N => if fst p then snd p else 0%N) (combine b keys)) = map (fun p : bool * N => (fst p, if fst p then snd p else 0%N)) (combine b keys).
Proof. induction b as [|x b IH]; intros [|k keys] L; try discriminate; [reflexivity|]. cbn. f_equal. apply IH. now injection L. Qed.
Theorem cast_keys_rows : forall vt a, (match da_kvalid a with Some b => length b = length (da_keys a) | None => True end) ->
  da_rows vt (cast_keys a) = da_rows vt a /\ length (da_keys (cast_keys a)) = length (da_keys a).
Proof.
  intros vt a H. assert (L : length (key_bits a) = length (da_keys a)) by (unfold key_bits; destruct (da_kvalid a); [exact H|apply repeat_length]).
  assert (L2 : length (da_keys (cast_keys a)) = length (da_keys a)) by (cbn; rewrite map_length, combine_length, L; apply Nat.min_id).
  split; [|exact L2]. unfold da_rows. assert (K : key_bits (cast_keys a) = key_bits a) by (unfold key_bits; cbn [da_kvalid cast_keys]; fold (cast_keys a); now rewrite L2). rewrite K.
  cbn [da_keys da_vals cast_keys]. rewrite (cast_pairs _ _ L), map_map. apply map_ext. intros [[] k]; reflexivity.
Qed.
(* putting the arrays together keeps the rows, also when the keys are widened *)
Theorem concat_rows : forall cat k vt arrays k1 a, cat_ok cat -> Forall (da_ok k vt) arrays -> Forall (fun x => (N.of_nat (dv_len (da_vals x)) <= k_max u32)%N) arrays ->
  concat_dict cat k arrays = Some (k1, a) -> da_ok k1 vt a /\ da_rows vt a = flat_map (da_rows vt) arrays /\ (k1 = k \/ k1 = u32).
Proof.
  intros cat k vt arrays k1 a C F B H. unfold concat_dict in H. destruct (cat k arrays) as [x|] eqn:E.
  - assert (k1 = k /\ x = a) as [-> ->] by (split; congruence). destruct (C k vt arrays a F E) as [X Y]. auto.
  - destruct (cat u32 (map cast_keys arrays)) as [x|] eqn:E2; [|discriminate]. cbn [omap] in H. assert (k1 = u32 /\ x = a) as [-> ->] by (split; congruence).
    assert (F2 : Forall (da_ok u32 vt) (map cast_keys arrays)).
    { apply Forall_forall. intros y Hy. apply in_map_iff in Hy as (z & <- & Hz). rewrite Forall_forall in F, B. specialize (F z Hz). specialize (B z Hz). destruct F as (F1 & F2 & F3).
      assert (L : length (key_bits z) = length (da_keys z)) by (unfold key_bits; destruct (da_kvalid z); [exact F2|apply repeat_length]).
      destruct (cast_keys_rows vt z F2) as [_ L2]. split; [exact F1|]. split.
      - cbn [da_kvalid cast_keys]. fold (cast_keys z). destruct (da_kvalid z); [now rewrite L2|exact Logic.I].
      - assert (K : key_bits (cast_keys z) = key_bits z) by (unfold key_bits; cbn [da_kvalid cast_keys]; fold (cast_keys z); now rewrite L2). rewrite K.
        cbn [da_keys da_vals cast_keys]. rewrite (cast_pairs _ _ L). apply Forall_forall. intros p Hp. apply in_map_iff in Hp as (q & <- & Hq). rewrite Forall_forall in F3. specialize (F3 q Hq). cbn [fst snd].
        destruct (fst q); [|discriminate]. intros T. destruct (F3 T) as [G1 G2]. split; [lia|exact G2]. }
    destruct (C u32 vt _ a F2 E2) as [X Y]. split; [exact X|]. split; [|auto]. rewrite Y. clear - F.
    induction F as [|z t Hz F IH]; [reflexivity|]. cbn [map flat_map]. destruct Hz as (_ & Hz & _). rewrite (proj1 (cast_keys_rows vt z Hz)). now f_equal.
Qed.
