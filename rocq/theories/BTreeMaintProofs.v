(* Proofs about remapping and updating a B-tree index (C60, C70). *)
From Coq Require Import List Arith NArith ZArith Lia Bool Sorted Permutation.
From Verif Require Import Lib AMap RowIdsModel SerdeModel TreeMapModel TreeMapProofs ScalarModel ScalarProofs BitmapIndexProofs.
Import ListNotations.

(* ---- the order of all_page_ids ---- *)
Lemma ventry_flat_last : forall k r (m : vmap (list prec)), ksorted m -> (forall k', In k' (map fst m) -> vle k' k = true) ->
  flat_map snd (ventry k [] (fun v => v ++ [r]) m) = flat_map snd m ++ [r].
Proof.
  intros k r. induction m as [|[k0 v0] m IH]; intros S H; [reflexivity|]. destruct S as [S1 S2]. cbn [ventry]. destruct (veq k k0) eqn:E.
  - apply veq_true in E. subst k0. destruct m as [|[k1 v1] m]; [cbn; rewrite !app_nil_r; reflexivity|]. exfalso. specialize (S1 k1 (or_introl eq_refl)). specialize (H k1 (or_intror (or_introl eq_refl))). apply vlt_iff in S1. congruence.
  - assert (L : vlt k k0 = false) by (apply vlt_false; apply H; left; reflexivity). rewrite L. cbn [flat_map snd]. rewrite IH; [apply app_assoc|exact S2|intros k' J; apply H; right; exact J].
Qed.
Lemma ventry_id_flat : forall k (m : vmap (list prec)), flat_map snd (ventry k [] (fun v => v) m) = flat_map snd m.
Proof. intros k. induction m as [|[k0 v0] m IH]; [reflexivity|]. cbn [ventry]. destruct (veq k k0); [reflexivity|]. destruct (vlt k k0); [reflexivity|]. cbn [flat_map snd]. rewrite IH. reflexivity. Qed.
Definition valued (s : stat) : bool := negb (is_none (st_max s)).
Definition rec_of (s : stat) : prec := {| pr_max := st_max s; pr_page := st_page s |}.
Lemma fold_order : forall stats l, ksorted (lk_tree l) ->
  (forall k s, In k (map fst (lk_tree l)) -> In s stats -> valued s = true -> vle k (st_min s) = true) ->
  StronglySorted (fun s s' => valued s = true -> valued s' = true -> vle (st_min s) (st_min s') = true) stats ->
  flat_map snd (lk_tree (fold_left add_stat stats l)) = flat_map snd (lk_tree l) ++ map rec_of (filter valued stats).
Proof.
  induction stats as [|s stats IH]; intros l S H SS; [cbn; rewrite app_nil_r; reflexivity|]. inversion SS as [|? ? SS1 SS2]; subst. rewrite Forall_forall in SS2. cbn [fold_left filter]. unfold valued at 1. destruct (is_none (st_max s)) eqn:E; cbn [negb].
  - assert (X : lk_tree (add_stat l s) = lk_tree l) by (cbn; rewrite E; reflexivity). rewrite IH; [rewrite X; reflexivity|rewrite X; exact S| |exact SS1]. intros k s' J K. rewrite X in J. apply H; [exact J|right; exact K].
  - assert (X : lk_tree (add_stat l s) = ventry (st_min s) [] (fun v => v ++ [rec_of s]) (lk_tree l)) by (cbn; rewrite E; reflexivity).
    assert (VS : valued s = true) by (unfold valued; rewrite E; reflexivity).
    rewrite IH; [|rewrite X; apply ventry_sorted; exact S| |exact SS1].
    + rewrite X, ventry_flat_last; [cbn [map]; rewrite <- app_assoc; reflexivity|exact S|]. intros k J. apply H; [exact J|left; reflexivity|exact VS].
    + intros k s' J K V. rewrite X in J. apply ventry_keys in J as [->|J]; [apply SS2; assumption|apply H; [exact J|right; exact K|exact V]].
Qed.
Lemma stats_sorted : forall batches i, vsorted (concat batches) -> StronglySorted (fun s s' => valued s = true -> valued s' = true -> vle (st_min s) (st_min s') = true) (stats_from i batches).
Proof.
  induction batches as [|b t IH]; intros i S; [constructor|]. cbn in S. apply ss_app in S as [_ [S2 S3]]. cbn [stats_from]. constructor; [apply IH; exact S2|]. apply Forall_forall. intros s J V V'. apply In_nth_error in J as [j J]. rewrite stats_nth in J.
  destruct (nth_error t j) as [b'|] eqn:E; [|discriminate]. injection J as <-. unfold valued in *. cbn [st_min st_max] in *.
  pose proof (page_max_spec b) as X. destruct (page_max b) as [mx|]; [|discriminate]. destruct X as [[ix Ix] _]. pose proof (page_min_spec b) as Y. destruct (page_min b) as [mn|]; [|exfalso; eapply Y; exact Ix]. destruct Y as [[im Im] _].
  pose proof (page_max_spec b') as X. destruct (page_max b') as [mx'|]; [|discriminate]. destruct X as [[ix' Ix'] _]. pose proof (page_min_spec b') as Y. destruct (page_min b') as [mn'|]; [|exfalso; eapply Y; exact Ix']. destruct Y as [[im' Im'] _].
  apply (S3 (Some mn, im) (Some mn', im')); [exact Im|]. apply in_concat. exists b'. split; [apply (nth_error_In _ j); exact E|exact Im'].
Qed.
(* pages with values in file order, then pages with nulls; neighbours merged *)
Lemma all_page_ids_order : forall batches, vsorted (concat batches) ->
  all_page_ids (load_lookup (stats_from 0 batches)) = dedup (map st_page (filter valued (stats_from 0 batches)) ++ map st_page (filter (fun s => 0 <? st_nulls s) (stats_from 0 batches))).
Proof.
  intros batches S. unfold all_page_ids. destruct (load_spec batches) as [_ [_ [_ ->]]]. do 2 f_equal.
  assert (F : flat_map snd (lk_tree (load_lookup (stats_from 0 batches))) = map rec_of (filter valued (stats_from 0 batches))).
  { pose proof (fold_order (stats_from 0 batches) {| lk_tree := []; lk_nulls := [] |} I (fun k s (J : In k []) => match J with end) (stats_sorted batches 0 S)) as FO. cbn [lk_tree flat_map app] in FO.
    unfold load_lookup. destruct (rev (stats_from 0 batches)); [exact FO|]. cbn [lk_tree]. rewrite ventry_id_flat. exact FO. }
  rewrite F, map_map. reflexivity.
Qed.
Lemma dedup_sinc : forall l, sinc l -> dedup l = l.
Proof.
  induction l as [|a l IH]; intros S; [reflexivity|]. destruct l as [|b l]; [reflexivity|]. cbn [dedup]. destruct S as [S1 S2]. assert (a < b)%N by (apply S1; left; reflexivity). destruct (N.eqb_spec a b); [lia|]. f_equal. apply IH. exact S2.
Qed.
Lemma stats_pages : forall batches i, map st_page (stats_from i batches) = nrange i (length batches).
Proof. induction batches as [|b t IH]; intros i; [reflexivity|]. cbn. rewrite IH. reflexivity. Qed.
Definition null_free (rows : list vrow) : Prop := forall r, In r rows -> fst r <> None.
Definition no_empty (batches : list (list vrow)) : Prop := forall b, In b batches -> b <> [].
Lemma all_page_ids_plain : forall batches, vsorted (concat batches) -> null_free (concat batches) -> no_empty batches ->
  all_page_ids (load_lookup (stats_from 0 batches)) = nrange 0 (length batches).
Proof.
  intros batches S N E. rewrite all_page_ids_order by exact S.
  assert (X : forall s, In s (stats_from 0 batches) -> valued s = true /\ (0 <? st_nulls s) = false).
  { intros s J. apply stats_In in J as [j [b [Eb ->]]]. apply nth_error_In in Eb. unfold valued. cbn [st_max st_nulls]. split.
    - pose proof (page_max_spec b) as M. destruct (page_max b) as [mx|]; [reflexivity|]. exfalso. destruct b as [|[v i] b]; [apply (E [] Eb); reflexivity|]. destruct v as [v|]; [eapply M; left; reflexivity|]. apply (N (None, i)); [apply in_concat; exists ((None, i) :: b); split; [exact Eb|left; reflexivity]|reflexivity].
    - apply Nat.ltb_ge. destruct (null_count b) as [|c] eqn:C; [lia|]. exfalso. assert (0 < null_count b) by lia. apply null_count_pos in H as [i H]. apply (N (None, i)); [apply in_concat; exists b; auto|reflexivity]. }
  rewrite filter_all_true by (intros s J; apply X; exact J). rewrite filter_all_false by (intros s J; apply X; exact J). cbn [map]. rewrite app_nil_r, stats_pages. apply dedup_sinc. apply nrange_sinc.
Qed.
Lemma read_all : forall fmt bs file, (fmt = V2 -> full_pages bs file) -> sequence_opt (map (read_page fmt bs file) (nrange 0 (length file))) = Some file.
Proof.
  intros fmt bs file F.
  assert (G : forall n k, n + k = length file -> sequence_opt (map (read_page fmt bs file) (nrange (N.of_nat n) k)) = Some (skipn n file)).
  { intros n k. revert n. induction k as [|k IH]; intros n E; [cbn; rewrite skipn_all2 by lia; reflexivity|]. cbn [nrange map]. rewrite sequence_opt_cons. destruct (nth_error file n) as [b|] eqn:Eb; [|apply nth_error_None in Eb; lia].
    rewrite (read_page_ok fmt bs file n b F Eb). cbn [obind]. replace (N.of_nat n + 1)%N with (N.of_nat (Datatypes.S n)) by lia. rewrite IH by lia. cbn. f_equal. clear -Eb. revert n Eb. induction file as [|x file IH]; intros [|n] Eb; try discriminate; cbn in *; [congruence|]. apply IH. exact Eb. }
  apply (G 0 (length file)). reflexivity.
Qed.

(* ---- remap ---- *)
Lemma remap_concat : forall m ps, concat (map (remap_batch m) ps) = remap_batch m (concat ps).
Proof. intros m. induction ps as [|p ps IH]; [reflexivity|]. cbn. rewrite IH. unfold remap_batch. symmetry. apply flat_map_app. Qed.
Lemma remap_In : forall m p v n, In (v, n) (remap_batch m p) <-> exists i, In (v, i) p /\ ((m i = None /\ n = i) \/ m i = Some (Some n)).
Proof.
  intros m p v n. unfold remap_batch. rewrite in_flat_map. split.
  - intros [[v0 i] [J K]]. cbn [fst snd] in K. destruct (m i) as [[n'|]|] eqn:E; cbn in K; [destruct K as [K|[]]; injection K as -> ->; eauto|destruct K|destruct K as [K|[]]; injection K as -> ->; eauto].
  - intros [i [J K]]. exists (v, i). split; [exact J|]. cbn [fst snd]. destruct K as [[-> ->]| ->]; left; reflexivity.
Qed.
Lemma remap_ids_ok : forall m rows, mapping_ok m -> ids_ok rows -> ids_ok (remap_batch m rows).
Proof.
  intros m rows OK IDS. apply Forall_forall. intros [v n] J. apply remap_In in J as [i [J [[_ ->]|E]]]; cbn; [unfold ids_ok in IDS; rewrite Forall_forall in IDS; apply (IDS _ J)|eapply OK; exact E].
Qed.
(* flat pages: search after remap is the claim, for every mapping *)
Theorem flat_remap_spec : forall m page q, ids_ok page -> mapping_ok m -> query_ok q -> exists s, flat_search q (remap_batch m page) = Some s /\
  forall id, (id < two64)%N -> (t_contains id s = true <-> exists v i, In (v, i) page /\ matches q v /\ ((m i = None /\ id = i) \/ m i = Some (Some id))).
Proof.
  intros m page q IDS OK Q. destruct (flat_search_spec q (remap_batch m page) Q (remap_ids_ok m page OK IDS)) as [s [E [_ A]]]. exists s. split; [exact E|]. intros id Hid. rewrite (A id Hid). split.
  - intros [v [J M]]. apply remap_In in J as [i [J K]]. exists v, i. auto.
  - intros [v [i [J [M K]]]]. exists v. split; [apply remap_In; eauto|exact M].
Qed.
Theorem bt_remap_spec : forall fmt bs batches m q,
  vsorted (concat batches) -> null_free (concat batches) -> no_empty batches -> ids_ok (concat batches) ->
  (fmt = V2 -> full_pages bs batches /\ full_pages bs (map (remap_batch m) batches)) -> mapping_ok m -> query_ok q ->
  exists t s, bt_remap m (train fmt bs batches) = Some t /\ bt_search t q = Some s /\ answers s (remap_batch m (concat batches)) q.
Proof.
  intros fmt bs batches m q S N E IDS F OK Q. unfold bt_remap. cbn [train bt_fmt bt_batch bt_file bt_lookup bt_stats]. rewrite all_page_ids_plain by assumption. rewrite read_all by (intros X; apply F; exact X). cbn [obind].
  eexists. match goal with |- exists s, Some ?t = _ /\ _ => destruct (bt_search_gen t batches (map (remap_batch m) batches) (map (remap_batch m) batches) q) as [s [Es A]] end; auto.
  - apply map_length.
  - intros j p Ep. cbn [bt_fmt bt_batch bt_file]. apply read_page_ok; [intros X; apply F; exact X|exact Ep].
  - intros j p v i Ep J. pose proof Ep as Ep'. rewrite nth_error_map in Ep. destruct (nth_error batches j) as [b|] eqn:Eb; [|discriminate]. injection Ep as <-. pose proof J as J'. apply remap_In in J as [i' [J _]]. exists b, i', (remap_batch m b). auto.
  - rewrite remap_concat. apply remap_ids_ok; assumption.
  - exists s. split; [reflexivity|]. split; [exact Es|]. rewrite <- remap_concat. exact A.
Qed.
(* nulls, all of them in the first page beside some value: the first page is written
   once more at the end; the extra rows it adds are rows of the table *)
Lemma stats_pos : forall batches i s, null_free (concat batches) -> no_empty batches -> In s (stats_from i batches) -> valued s = true /\ (0 <? st_nulls s) = false.
Proof.
  intros batches i s N E J. apply In_nth_error in J as [j J]. rewrite stats_nth in J. destruct (nth_error batches j) as [b|] eqn:Eb; [|discriminate]. injection J as <-. apply nth_error_In in Eb. unfold valued. cbn [st_max st_nulls]. split.
  - pose proof (page_max_spec b) as M. destruct (page_max b) as [mx|]; [reflexivity|]. exfalso. destruct b as [|[v k] b]; [apply (E [] Eb); reflexivity|]. destruct v as [v|]; [eapply M; left; reflexivity|]. apply (N (None, k)); [apply in_concat; exists ((None, k) :: b); split; [exact Eb|left; reflexivity]|reflexivity].
  - apply Nat.ltb_ge. destruct (null_count b) as [|c] eqn:C; [lia|]. exfalso. assert (0 < null_count b) by lia. apply null_count_pos in H as [k H]. apply (N (None, k)); [apply in_concat; exists b; auto|reflexivity].
Qed.
Lemma dedup_snoc : forall l x, sinc l -> dedup (l ++ [x]) = match rev l with y :: _ => if (y =? x)%N then l else l ++ [x] | [] => [x] end.
Proof.
  induction l as [|a l IH]; intros x S; [reflexivity|]. destruct S as [S1 S2]. destruct l as [|b l].
  - cbn. destruct (a =? x)%N eqn:E; [apply N.eqb_eq in E; subst; reflexivity|reflexivity].
  - change ((a :: b :: l) ++ [x]) with (a :: (b :: l) ++ [x]). assert (a < b)%N by (apply S1; left; reflexivity). change (dedup (a :: (b :: l) ++ [x])) with (if (a =? b)%N then dedup ((b :: l) ++ [x]) else a :: dedup ((b :: l) ++ [x])). destruct (N.eqb_spec a b); [lia|]. rewrite (IH x S2).
    change (rev (a :: b :: l)) with (rev (b :: l) ++ [a]). destruct (rev (b :: l)) as [|y r] eqn:R; [apply (f_equal (@length N)) in R; rewrite rev_length in R; discriminate|]. cbn [app]. destruct (y =? x)%N; reflexivity.
Qed.
Lemma all_page_ids_mixed : forall b0 rest x i, vsorted (concat (b0 :: rest)) -> null_free (concat rest) -> no_empty rest -> In (Some x, i) b0 ->
  exists extra, all_page_ids (load_lookup (stats_from 0 (b0 :: rest))) = nrange 0 (length (b0 :: rest)) ++ extra /\ (extra = [] \/ extra = [0%N]).
Proof.
  intros b0 rest x i S N E J. rewrite all_page_ids_order by exact S. cbn [stats_from filter].
  assert (V0 : valued {| st_min := page_min b0; st_max := page_max b0; st_nulls := null_count b0; st_page := 0 |} = true).
  { unfold valued. cbn [st_max]. pose proof (page_max_spec b0) as M. destruct (page_max b0); [reflexivity|]. exfalso. exact (M x i J). }
  rewrite V0. rewrite filter_all_true by (intros s K; apply (stats_pos rest (0 + 1) s N E K)).
  rewrite (filter_all_false (fun s => 0 <? st_nulls s) (stats_from (0 + 1) rest)) by (intros s K; apply (stats_pos rest (0 + 1) s N E K)). cbn [st_nulls st_page map length nrange]. rewrite stats_pages.
  assert (SI : sinc (0%N :: nrange (0 + 1) (length rest))) by (apply (nrange_sinc (length (b0 :: rest)) 0)).
  destruct (0 <? null_count b0); cbn [map].
  - cbn [st_page]. rewrite dedup_snoc by exact SI. destruct (rev (0%N :: nrange (0 + 1) (length rest))) as [|y r] eqn:R; [apply (f_equal (@length BinNums.N)) in R; rewrite rev_length in R; discriminate|]. destruct (y =? 0)%N; [exists []; rewrite app_nil_r; auto|exists [0%N]; auto].
  - rewrite app_nil_r. exists []. split; [rewrite app_nil_r; apply dedup_sinc; exact SI|auto].
Qed.
Lemma sequence_app : forall {A} (a b : list (option A)) xs ys, sequence_opt a = Some xs -> sequence_opt b = Some ys -> sequence_opt (a ++ b) = Some (xs ++ ys).
Proof.
  intros A. induction a as [|o a IH]; intros b xs ys Ha Hb; [injection Ha as <-; exact Hb|]. cbn [app]. rewrite sequence_opt_cons in *. destruct o as [z|]; [|discriminate]. cbn [obind] in *. destruct (sequence_opt a) as [zs|] eqn:E; [|discriminate]. cbn in Ha. injection Ha as <-. rewrite (IH b zs ys eq_refl Hb). reflexivity.
Qed.
(* reading a v2 file with one more page at the end *)
Lemma read_page_extra : forall bs file extra j b, full_pages bs file -> nth_error file j = Some b -> exists r, read_page V2 bs (file ++ [extra]) (N.of_nat j) = Some (b ++ r) /\ (forall x, In x r -> In x extra).
Proof.
  intros bs file extra j b F E. cbn [read_page]. rewrite Nnat.Nat2N.id, concat_app. cbn [concat]. rewrite app_nil_r. revert j E. induction file as [|p t IH]; intros j E; [destruct j; discriminate|]. destruct j as [|j].
  - injection E as ->. cbn [Nat.mul skipn concat]. destruct t as [|q t].
    + cbn in F. cbn [concat]. rewrite app_nil_r. exists (firstn (bs - length b) extra). split; [rewrite firstn_app, firstn_all2 by exact F; reflexivity|]. intros x J. rewrite <- (firstn_skipn (bs - length b) extra). apply in_or_app. auto.
    + destruct F as [F _]. exists []. rewrite app_nil_r, <- app_assoc. split; [f_equal; apply firstn_exact; exact F|intros x []].
  - cbn [nth_error] in E. destruct t as [|q t]; [destruct j; discriminate|]. destruct F as [F1 F2]. cbn [Nat.mul concat]. rewrite <- app_assoc, skipn_exact by exact F1. apply IH; assumption.
Qed.
Theorem bt_remap_mixed : forall fmt bs b0 rest m q x i,
  let batches := b0 :: rest in
  vsorted (concat batches) -> In (Some x, i) b0 -> null_free (concat rest) -> no_empty rest -> ids_ok (concat batches) ->
  (fmt = V2 -> full_pages bs batches /\ full_pages bs (map (remap_batch m) batches)) -> mapping_ok m -> query_ok q ->
  exists t s, bt_remap m (train fmt bs batches) = Some t /\ bt_search t q = Some s /\ answers s (remap_batch m (concat batches)) q.
Proof.
  intros fmt bs b0 rest m q x i batches S J N E IDS F OK Q. destruct (all_page_ids_mixed b0 rest x i S N E J) as [extra [AP HX]]. fold batches in AP. unfold bt_remap. cbn [train bt_fmt bt_batch bt_file bt_lookup bt_stats]. rewrite AP.
  assert (RD : exists ex, sequence_opt (map (read_page fmt bs batches) (nrange 0 (length batches) ++ extra)) = Some (batches ++ ex) /\ (ex = [] \/ ex = [b0])).
  { rewrite map_app. assert (R0 : sequence_opt (map (read_page fmt bs batches) (nrange 0 (length batches))) = Some batches) by (apply read_all; intros X; apply F; exact X).
    destruct HX as [-> | ->]; [exists []|exists [b0]]; (split; [|auto]); apply sequence_app; try exact R0; [reflexivity|]. cbn [map]. change 0%N with (N.of_nat 0). rewrite (read_page_ok fmt bs batches 0 b0) by (try (intros X; apply F; exact X); reflexivity). reflexivity. }
  destruct RD as [ex [-> HE]]. cbn [obind]. rewrite map_app. set (own := map (remap_batch m) batches).
  (* the pages as they are read *)
  assert (PG : exists pages, length pages = length batches /\
     (forall j p, nth_error pages j = Some p -> read_page fmt bs (own ++ map (remap_batch m) ex) (N.of_nat j) = Some p) /\
     (forall r, In r (concat pages) -> In r (concat own)) /\ (forall j p, nth_error own j = Some p -> exists p', nth_error pages j = Some p' /\ forall r, In r p -> In r p')).
  { assert (IN0 : forall r, In r (concat (map (remap_batch m) ex)) -> In r (concat own)).
    { intros r K. destruct HE as [-> | ->]; [destruct K|]. cbn in K. rewrite app_nil_r in K. unfold own, batches. cbn. apply in_or_app. auto. }
    destruct fmt.
    - exists own. split; [apply map_length|]. split; [|split; [auto|intros j p K; exists p; auto]]. intros j p K. cbn [read_page]. rewrite Nnat.Nat2N.id. rewrite nth_error_app1; [exact K|apply nth_error_Some; congruence].
    - destruct (F eq_refl) as [_ F2]. fold own in F2.
      set (rd := fun j => match read_page V2 bs (own ++ map (remap_batch m) ex) (N.of_nat j) with Some p => p | None => [] end).
      assert (RX : forall j b, nth_error own j = Some b -> exists r, rd j = b ++ r /\ forall x, In x r -> In x (concat own)).
      { intros j b K. unfold rd. destruct HE as [-> | ->]; cbn [map].
        - rewrite app_nil_r. rewrite (read_page_ok V2 bs own j b (fun _ => F2) K). exists []. rewrite app_nil_r. split; [reflexivity|intros y []].
        - destruct (read_page_extra bs own (remap_batch m b0) j b F2 K) as [r [-> R]]. exists r. split; [reflexivity|]. intros y Y. apply IN0. cbn. rewrite app_nil_r. apply R. exact Y. }
      exists (map rd (seq 0 (length batches))). split; [rewrite map_length, seq_length; reflexivity|].
      assert (LO : length own = length batches) by apply map_length.
      assert (NT : forall j, j < length batches -> nth_error (map rd (seq 0 (length batches))) j = Some (rd j)).
      { intros j Lj. rewrite nth_error_map. rewrite (nth_error_nth' _ 0) by (rewrite seq_length; exact Lj). rewrite seq_nth by exact Lj. reflexivity. }
      split; [|split].
      + intros j p K. assert (Lj : j < length batches) by (rewrite <- (seq_length (length batches) 0), <- (map_length rd); apply nth_error_Some; congruence). rewrite (NT j Lj) in K. injection K as <-. reflexivity.
      + intros r K. apply in_concat in K as [p [K1 K2]]. apply in_map_iff in K1 as [j [<- K1]]. apply in_seq in K1. destruct (nth_error own j) as [b|] eqn:Eb; [|apply nth_error_None in Eb; lia]. destruct (RX j b Eb) as [r0 [Er R]]. rewrite Er in K2. apply in_app_iff in K2 as [K2|K2]; [|apply R; exact K2]. apply in_concat. exists b. split; [apply (nth_error_In _ j); exact Eb|exact K2].
      + intros j p K. exists (rd j). split; [apply NT; rewrite <- LO; apply nth_error_Some; congruence|]. destruct (RX j p K) as [r0 [Er _]]. intros r R. rewrite Er. apply in_or_app. auto. }
  destruct PG as [pages [P1 [P2 [P3 P4]]]].
  eexists. match goal with |- exists s, Some ?t = _ /\ _ => destruct (bt_search_gen t batches pages own q) as [s [Es A]] end; auto.
  - intros j p v k Ep K. destruct (P4 j p Ep) as [p' [Ep' R]]. unfold own in Ep. rewrite nth_error_map in Ep. destruct (nth_error batches j) as [b|] eqn:Eb; [|discriminate]. injection Ep as <-. pose proof K as K'. apply remap_In in K as [i' [K _]]. exists b, i', p'. auto.
  - apply Forall_forall. intros r K. apply P3 in K. unfold own in K. rewrite remap_concat in K. pose proof (remap_ids_ok m _ OK IDS) as RI. unfold ids_ok in RI. rewrite Forall_forall in RI. apply RI. exact K.
  - exists s. split; [reflexivity|]. split; [exact Es|]. rewrite <- remap_concat. exact A.
Qed.
(* in a v2 file it is enough that no row of a page other than the last is dropped *)
Lemma remap_length : forall m p, (forall r, In r p -> m (snd r) <> Some None) -> length (remap_batch m p) = length p.
Proof.
  intros m. induction p as [|[v i] p IH]; intros H; [reflexivity|]. cbn [remap_batch flat_map]. fold (remap_batch m p). rewrite app_length, IH by (intros r J; apply H; right; exact J). specialize (H (v, i) (or_introl eq_refl)). cbn [fst snd] in *. destruct (m i) as [[n|]|]; [reflexivity|congruence|reflexivity].
Qed.
Lemma remap_length_le : forall m p, length (remap_batch m p) <= length p.
Proof. intros m. induction p as [|[v i] p IH]; [cbn; lia|]. cbn [remap_batch flat_map]. fold (remap_batch m p). rewrite app_length. cbn [fst snd length]. destruct (m i) as [[n|]|]; cbn [length]; lia. Qed.
Lemma keeps_full : forall m bs batches, full_pages bs batches -> (forall b r, In b (removelast batches) -> In r b -> m (snd r) <> Some None) -> full_pages bs (map (remap_batch m) batches).
Proof.
  intros m bs. induction batches as [|b t IH]; intros F H; [exact I|]. destruct t as [|b' t].
  - cbn in *. pose proof (remap_length_le m b). lia.
  - destruct F as [F1 F2]. cbn [map]. split; [rewrite remap_length; [exact F1|intros r J; apply (H b); [left; reflexivity|exact J]]|]. apply IH; [exact F2|]. intros x r J K. apply (H x); [right; exact J|exact K].
Qed.
Theorem bt_remap_v2 : forall bs batches m q,
  vsorted (concat batches) -> null_free (concat batches) -> no_empty batches -> ids_ok (concat batches) -> full_pages bs batches ->
  (forall b r, In b (removelast batches) -> In r b -> m (snd r) <> Some None) -> mapping_ok m -> query_ok q ->
  exists t s, bt_remap m (train V2 bs batches) = Some t /\ bt_search t q = Some s /\ answers s (remap_batch m (concat batches)) q.
Proof. intros. apply bt_remap_spec; auto. intros _. split; [assumption|apply keeps_full; assumption]. Qed.
Lemma two_by_two : forall (f : N -> Z -> vrow) a b c d i j k l, (a <= b)%Z -> (b <= c)%Z -> (c <= d)%Z -> vsorted [(Some a, i); (Some b, j); (Some c, k); (Some d, l)].
Proof. intros. unfold vsorted. repeat (constructor; [|repeat constructor; cbn; apply Z.leb_le; lia]). constructor. Qed.
(* a row dropped from a page that is not the last shifts the pages behind it *)
Theorem bt_remap_shrink_refuted : exists bs batches m, vsorted (concat batches) /\ null_free (concat batches) /\ no_empty batches /\ full_pages bs batches /\ ids_ok (concat batches) /\ mapping_ok m /\
  exists s, obind (bt_remap m (train V2 bs batches)) (fun t => bt_search t (QEq (Some 4%Z))) = Some s /\ ~ answers s (remap_batch m (concat batches)) (QEq (Some 4%Z)).
Proof.
  exists 2, [[(Some 1%Z, 0%N); (Some 2%Z, 1%N)]; [(Some 3%Z, 2%N); (Some 4%Z, 3%N)]], (fun i => if (i <? 2)%N then Some None else None).
  split; [apply (two_by_two (fun i z => (Some z, i))); lia|]. split; [intros r J; cbn in J; intuition (subst; discriminate)|]. split; [intros b J; cbn in J; intuition (subst; discriminate)|]. split; [cbn; auto|]. split; [repeat constructor|]. split; [intros i n; destruct (i <? 2)%N; discriminate|].
  eexists. split; [vm_compute; reflexivity|]. intros A. specialize (A 3%N eq_refl). destruct A as [_ A]. discriminate A. exists (Some 4%Z). split; [cbn; auto|reflexivity].
Qed.
(* an all-null first page is written last but looked up first; nothing is dropped here *)
Theorem bt_remap_nulls_refuted : exists fmt bs batches m, vsorted (concat batches) /\ no_empty batches /\ full_pages bs batches /\ ids_ok (concat batches) /\ mapping_ok m /\ (forall i, m i = None) /\
  exists s, obind (bt_remap m (train fmt bs batches)) (fun t => bt_search t (QEq (Some 3%Z))) = Some s /\ ~ answers s (remap_batch m (concat batches)) (QEq (Some 3%Z)).
Proof.
  exists V2, 2, [[(None, 0%N); (None, 1%N)]; [(Some 3%Z, 2%N); (Some 4%Z, 3%N)]], (fun i => None).
  split; [unfold vsorted; cbn; repeat (constructor; [|repeat constructor]); constructor|]. split; [intros b J; cbn in J; intuition (subst; discriminate)|]. split; [cbn; auto|]. split; [repeat constructor|]. split; [intros i n; discriminate|]. split; [reflexivity|].
  eexists. split; [vm_compute; reflexivity|]. intros A. specialize (A 2%N eq_refl). destruct A as [_ A]. discriminate A. exists (Some 3%Z). split; [cbn; auto|reflexivity].
Qed.
Example remap_example : let batches := [[(Some 1%Z, 0%N); (Some 2%Z, 1%N)]; [(Some 3%Z, 2%N); (Some 4%Z, 3%N)]] in
  let m := fun i => if (i =? 3)%N then Some None else if (i =? 2)%N then Some (Some 4294967296)%N else None in
  (forall b r, In b (removelast batches) -> In r b -> m (snd r) <> Some None) /\
  omap t_row_ids (obind (bt_remap m (train V2 2 batches)) (fun t => bt_search t (QRange (VInc (Some 2%Z)) VUnb))) = Some (Some [1; 4294967296]%N).
Proof. cbv zeta. split; [|vm_compute; reflexivity]. cbn. intros b r [<-|[]] [<-|[<-|[]]]; discriminate. Qed.

(* ---- update ---- *)
Lemma merge_perm : forall fuel a b, Permutation (merge_fuel fuel a b) (a ++ b).
Proof.
  induction fuel as [|k IH]; intros a b; [reflexivity|]. cbn [merge_fuel]. destruct a as [|x a]; [reflexivity|]. destruct b as [|y b]; [rewrite app_nil_r; reflexivity|]. destruct (vle (fst x) (fst y)).
  - cbn. constructor. apply IH.
  - rewrite IH. apply Permutation_middle.
Qed.
Lemma merge_sorted : forall fuel a b, length a + length b <= fuel -> vsorted a -> vsorted b -> vsorted (merge_fuel fuel a b).
Proof.
  induction fuel as [|k IH]; intros a b L Sa Sb.
  - destruct a, b; cbn in *; try lia. constructor.
  - cbn [merge_fuel]. destruct a as [|x a]; [exact Sb|]. destruct b as [|y b]; [exact Sa|]. cbn [length] in L. inversion Sa as [|? ? Sa1 Sa2]; subst. inversion Sb as [|? ? Sb1 Sb2]; subst. rewrite Forall_forall in Sa2, Sb2. destruct (vle (fst x) (fst y)) eqn:E.
    + constructor; [apply IH; [cbn [length]; lia|exact Sa1|exact Sb]|]. apply Forall_forall. intros z J. apply (Permutation_in _ (merge_perm _ _ _)) in J. apply in_app_iff in J as [J|[<-|J]]; [apply Sa2; exact J|exact E|]. apply (vle_trans _ (fst y)); [exact E|apply Sb2; exact J].
    + apply vle_total in E. constructor; [apply IH; [cbn [length]; lia|exact Sa|exact Sb1]|]. apply Forall_forall. intros z J. apply (Permutation_in _ (merge_perm _ _ _)) in J. apply in_app_iff in J as [[<-|J]|J]; [exact E| |apply Sb2; exact J]. apply (vle_trans _ (fst x)); [exact E|apply Sa2; exact J].
Qed.
Lemma chunk_concat : forall n fuel l, 0 < n -> length l <= fuel -> concat (chunk_fuel fuel n l) = l.
Proof.
  intros n. induction fuel as [|k IH]; intros l Hn L; [destruct l; [reflexivity|cbn in L; lia]|]. cbn [chunk_fuel]. destruct l as [|x l]; [reflexivity|]. cbn [concat]. rewrite IH; [apply firstn_skipn|exact Hn|]. rewrite skipn_length. cbn [length] in *. lia.
Qed.
Lemma chunk_full : forall n fuel l, 0 < n -> length l <= fuel -> full_pages n (chunk_fuel fuel n l).
Proof.
  intros n. induction fuel as [|k IH]; intros l Hn L; [exact I|]. cbn [chunk_fuel]. destruct l as [|x l]; [exact I|]. assert (IHk : full_pages n (chunk_fuel k n (skipn n (x :: l)))) by (apply IH; [exact Hn|rewrite skipn_length; cbn [length] in *; lia]).
  destruct (chunk_fuel k n (skipn n (x :: l))) as [|c cs] eqn:E; cbn [full_pages]; [apply firstn_le_length|]. split; [|exact IHk]. apply firstn_length_le.
  destruct (le_lt_dec n (length (x :: l))) as [G|G]; [exact G|]. rewrite skipn_all2 in E by lia. destruct k; discriminate E.
Qed.
(* claim: searching after the update answers for the old and the new rows *)
Theorem bt_update_spec : forall fmt n batches new q, 0 < n ->
  vsorted (concat batches) -> null_free (concat batches) -> no_empty batches -> (fmt = V2 -> full_pages n batches) -> vsorted new ->
  ids_ok (concat batches) -> ids_ok new -> query_ok q ->
  exists t s, bt_update n new (train fmt n batches) = Some t /\ bt_search t q = Some s /\ answers s (concat batches ++ new) q.
Proof.
  intros fmt n batches new q Hn S N E F Sn IDS IDN Q. unfold bt_update. cbn [train bt_fmt bt_batch bt_file bt_lookup bt_stats]. rewrite all_page_ids_plain by assumption. rewrite read_all by exact F. cbn [obind].
  set (mg := merge (concat batches) new). assert (C : concat (chunk n mg) = mg) by (apply chunk_concat; [exact Hn|lia]).
  assert (PM : Permutation mg (concat batches ++ new)) by apply merge_perm.
  destruct (bt_search_spec fmt n (chunk n mg) q) as [s [Es A]].
  - rewrite C. apply merge_sorted; [lia|exact S|exact Sn].
  - intros _. apply chunk_full; [exact Hn|lia].
  - rewrite C. apply Forall_forall. intros r J. apply (Permutation_in _ PM) in J. unfold ids_ok in *. rewrite Forall_forall in *. apply in_app_iff in J as [J|J]; auto.
  - exact Q.
  - eexists. exists s. split; [reflexivity|]. split; [exact Es|]. intros id Hid. rewrite (A id Hid), C. split; intros [v [J M]]; exists v; (split; [|exact M]); [apply (Permutation_in _ PM)|apply (Permutation_in _ (Permutation_sym PM))]; exact J.
Qed.
(* a first page holding a null and a value is read twice, the second time at the end:
   the new row 9 shares its page with the value 1 and is not found any more *)
Theorem bt_update_nulls_refuted : exists fmt n batches new q, 0 < n /\ vsorted (concat batches) /\ no_empty batches /\ full_pages n batches /\ vsorted new /\ ids_ok (concat batches) /\ ids_ok new /\ query_ok q /\
  exists s, obind (bt_update n new (train fmt n batches)) (fun t => bt_search t q) = Some s /\ ~ answers s (concat batches ++ new) q.
Proof.
  exists V2, 2, [[(None, 0%N); (Some 1%Z, 1%N)]; [(Some 2%Z, 2%N); (Some 3%Z, 3%N)]; [(Some 4%Z, 4%N)]], [(Some 9%Z, 5%N)], (QEq (Some 9%Z)).
  split; [lia|]. split; [unfold vsorted; cbn; repeat (constructor; [|repeat constructor]); constructor|]. split; [intros b J; cbn in J; intuition (subst; discriminate)|]. split; [cbn; auto|]. split; [repeat constructor|]. split; [repeat constructor|]. split; [repeat constructor|]. split; [exact I|].
  eexists. split; [vm_compute; reflexivity|]. intros A. specialize (A 5%N eq_refl). destruct A as [_ A]. discriminate A. exists (Some 9%Z). split; [cbn; auto 10|reflexivity].
Qed.
Example update_example : let batches := [[(Some 1%Z, 0%N); (Some 3%Z, 1%N)]; [(Some 3%Z, 2%N)]] in let new := [(None, 9%N); (Some 2%Z, 7%N); (Some 8%Z, 8%N)] in
  vsorted (concat batches) /\ null_free (concat batches) /\ no_empty batches /\ full_pages 2 batches /\ vsorted new /\
  omap bt_file (bt_update 2 new (train V2 2 batches)) = Some [[(None, 9%N); (Some 1%Z, 0%N)]; [(Some 2%Z, 7%N); (Some 3%Z, 1%N)]; [(Some 3%Z, 2%N); (Some 8%Z, 8%N)]] /\
  omap t_row_ids (obind (bt_update 2 new (train V2 2 batches)) (fun t => bt_search t (QRange (VExc (Some 1%Z)) (VInc (Some 3%Z))))) = Some (Some [1; 2; 7]%N).
Proof.
  cbv zeta. split; [unfold vsorted; cbn; repeat (constructor; [|repeat constructor]); constructor|]. split; [intros r J; cbn in J; intuition (subst; discriminate)|]. split; [intros b J; cbn in J; intuition (subst; discriminate)|]. split; [cbn; auto|].
  split; [unfold vsorted; repeat (constructor; [|repeat constructor]); constructor|]. split; vm_compute; reflexivity.
Qed.
