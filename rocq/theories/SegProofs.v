From Coq Require Import List Arith NArith Bool Lia ZifyBool ZifyN ZifyNat.
From Verif Require Import Lib RowIdsModel RowIdsSpec EncArrProofs BitmapProofs.
Import ListNotations.
Local Open Scope nat_scope.
Local Opaque Nat.div Nat.modulo.

(** * Lists inside a range *)

Lemma filter_mem_range : forall l a k, sinc l -> (forall x, In x l -> (a <= x < a + N.of_nat k)%N) ->
  filter (fun v => memN v l) (nrange a k) = l.
Proof.
  intros l a k Hs Hr. apply sinc_ext; auto.
  - apply sinc_filter, nrange_sinc.
  - intros x. rewrite filter_In, nrange_In, memN_In. split; [tauto|]. intros H. split; auto.
Qed.

Lemma sinc_range_length : forall l a k, sinc l -> (forall x, In x l -> (a <= x < a + N.of_nat k)%N) ->
  length l <= k /\ (length l = k -> l = nrange a k).
Proof.
  intros l a k Hs Hr. assert (E := filter_mem_range l a k Hs Hr).
  assert (HL := filter_length_split (fun v => memN v l) (nrange a k)).
  rewrite E, nrange_length in HL. split; [lia|]. intros Hk.
  rewrite <- E at 1. apply filter_all_true. intros x Hx.
  destruct (memN x l) eqn:Em; auto. exfalso.
  assert (Hin : In x (filter (fun v => negb (memN v l)) (nrange a k))).
  { apply filter_In. split; auto. now rewrite Em. }
  destruct (filter (fun v => negb (memN v l)) (nrange a k)); [destruct Hin|simpl in HL; lia].
Qed.

Lemma holes_in_spec : forall vals ex, sinc vals -> sinc ex -> incl ex vals ->
  holes_in vals ex = filter (fun v => negb (memN v ex)) vals.
Proof.
  induction vals as [|v vs IH]; intros ex Hv He Hi; [reflexivity|].
  cbn [holes_in filter]. destruct Hv as [Hv1 Hv2]. destruct ex as [|e es].
  - simpl. f_equal. rewrite (IH []); simpl; auto. intros x [].
  - destruct He as [He1 He2]. destruct (e =? v)%N eqn:E.
    + apply N.eqb_eq in E. subst e. replace (memN v (v :: es)) with true
        by (symmetry; apply memN_In; now left). cbn [negb].
      rewrite IH; auto.
      * apply filter_ext_in'. intros x Hx. f_equal. specialize (Hv1 _ Hx).
        simpl. replace (x =? v)%N with false by lia. reflexivity.
      * intros x Hx. destruct (Hi x) as [<-|H]; auto; [now right|]. specialize (He1 _ Hx). lia.
    + assert (Hev : In e vs) by (destruct (Hi e) as [H|H]; auto; [now left|lia]).
      assert (Hnv : memN v (e :: es) = false).
      { apply memN_false. intros [H|H]; [lia|]. specialize (He1 _ H). specialize (Hv1 _ Hev). lia. }
      rewrite Hnv. cbn [negb]. f_equal. apply IH; auto. split; auto.
      intros x Hx. destruct (Hi x Hx) as [<-|]; auto. exfalso. apply memN_false in Hnv. auto.
Qed.

Lemma sortN_sinc : forall l, sinc l -> sortN l = l.
Proof.
  induction l as [|a l IH]; [reflexivity|]. intros [H1 H2]. simpl. rewrite IH by auto.
  destruct l as [|b l]; simpl; auto. replace (a <=? b)%N with true; auto.
  symmetry. specialize (H1 b (or_introl eq_refl)). lia.
Qed.

(** * from_stats *)

Definition stats_ok (st : stats) (l : list N) : Prop :=
  st_count st = N.of_nat (length l) /\
  (st_sorted st = true -> sinc l) /\
  (st_sorted st = false -> l <> []) /\
  (l <> [] -> In (st_min st) l /\ In (st_max st) l /\
              forall y, In y l -> (st_min st <= y <= st_max st)%N).

Lemma nonempty_length : forall {A} (l : list A), length l <> 0 -> l <> [].
Proof. intros A l H E. subst. now apply H. Qed.

Lemma from_stats_spec : forall st l, valid_ids l -> stats_ok st l ->
  exists s, from_stats st l = Some s /\ seg_iter s = l /\ seg_wf s.
Proof.
  intros st l Hv [Hc [Hs [Hns Hm]]]. unfold from_stats.
  assert (Hv64 : Forall (fun x => (x < two64)%N) l).
  { eapply Forall_impl; [|exact Hv]. unfold u64_max, two64. simpl. intros; lia. }
  destruct (st_sorted st).
  2:{ eexists. split; [reflexivity|]. simpl. rewrite ea_from_iter. repeat split; auto.
      now apply ea_from_wf. }
  specialize (Hs eq_refl). clear Hns.
  unfold n_holes. rewrite Hc.
  destruct (N.of_nat (length l) =? 0)%N eqn:E0.
  { assert (l = []) by (destruct l; auto; simpl in E0; lia). subst. simpl.
    eexists. split; [reflexivity|]. split; [reflexivity|]. cbn [seg_wf]. unfold two64. lia. }
  assert (Hne : l <> []) by (apply nonempty_length; lia).
  destruct (Hm Hne) as [Hmin [Hmax Hall]]. clear Hm.
  set (mn := st_min st) in *. set (mx := st_max st) in *.
  assert (Hmm : (mn <= mx)%N) by (apply Hall; auto).
  assert (Hmx : (mx < u64_max)%N) by (unfold valid_ids in Hv; rewrite Forall_forall in Hv; auto).
  replace (mx <? mn)%N with false by lia.
  replace (two64 <=? mx - mn + 1)%N with false by (unfold two64, u64_max in *; lia).
  set (k := N.to_nat (mx - mn + 1)).
  assert (Hr : forall x, In x l -> (mn <= x < mn + N.of_nat k)%N) by (intros x Hx; specialize (Hall _ Hx); lia).
  destruct (sinc_range_length l mn k Hs Hr) as [HL1 HL2].
  replace (mx - mn + 1 <? N.of_nat (length l))%N with false by lia.
  cbn [obind]. unfold checked_succ. replace (mx + 1 <? two64)%N with true by (unfold two64, u64_max in *; lia).
  assert (Hrl : range_list mn (mx + 1) = nrange mn k) by (unfold range_list; f_equal; lia).
  assert (Hh : holes_in (nrange mn k) l = filter (fun v => negb (memN v l)) (nrange mn k)).
  { apply holes_in_spec; auto; [apply nrange_sinc|]. intros x Hx. apply nrange_In. auto. }
  assert (Hhin : forall x, In x (nrange mn k) ->
             memN x (filter (fun v => negb (memN v l)) (nrange mn k)) = negb (memN x l)).
  { intros x Hx. destruct (memN x l) eqn:Ex; simpl.
    - apply memN_false. rewrite filter_In, Ex. simpl. intros [_ H]. discriminate.
    - apply memN_In. rewrite filter_In, Ex. auto. }
  destruct (mx - mn + 1 - N.of_nat (length l) =? 0)%N eqn:E1.
  { eexists. split; [reflexivity|]. split.
    - simpl. rewrite Hrl. symmetry. apply HL2. lia.
    - simpl. unfold two64, u64_max in *. lia. }
  unfold seq_sizes. fold mn mx. rewrite Hc.
  destruct (N.min _ (N.min _ _) =? 24 + 4 * _)%N.
  { (* holes *)
    eexists. split; [reflexivity|].
    set (hs := filter (fun v => negb (memN v l)) (nrange mn k)) in *.
    assert (Hshs : sinc hs) by (apply sinc_filter, nrange_sinc).
    assert (Hsort : sortN (holes_in (nrange mn k) l) = hs).
    { rewrite Hh. now apply sortN_sinc. }
    fold k. rewrite Hsort.
    assert (Hw : ea_wf (ea_from hs)).
    { apply ea_from_wf. apply Forall_forall. intros x Hx. apply filter_In in Hx.
      destruct Hx as [Hx _]. apply nrange_In in Hx. unfold two64, u64_max in *. lia. }
    split.
    - simpl. rewrite Hrl.
      transitivity (filter (fun v => memN v l) (nrange mn k)); [|now rewrite (filter_mem_range l mn k)].
      apply filter_ext_in'. intros x Hx.
      rewrite (bsearch_is_err hs x).
      + unfold hs. rewrite Hhin by auto. apply negb_involutive.
      + rewrite <- (ea_from_iter hs) at 1. apply ea_bsearch_ok; auto.
        rewrite ea_from_iter. now apply sinc_ninc.
    - simpl. rewrite ea_from_iter. repeat split; auto; try (unfold two64, u64_max in *; lia).
      apply Forall_forall. intros x Hx. apply filter_In in Hx.
      destruct Hx as [Hx _]. apply nrange_In in Hx. lia. }
  destruct (N.min _ (N.min _ _) =? 24 + _ / 8)%N.
  { (* bitmap *)
    cbn [obind].
    destruct (bm_new_full_wf k) as [Fw [Fl Fg]].
    destruct (bm_clear_all_spec (map (fun h => N.to_nat (h - mn)) (holes_in (nrange mn k) l)) (bm_new_full k) Fw)
      as [b [Eb [Wb [Lb Gb]]]].
    { apply Forall_forall. intros o Ho. apply in_map_iff in Ho. destruct Ho as [h [<- Hh']].
      rewrite Hh in Hh'. apply filter_In in Hh'. destruct Hh' as [Hh' _]. apply nrange_In in Hh'.
      rewrite Fl. lia. }
    fold k. rewrite Eb. cbn [omap]. eexists. split; [reflexivity|]. split.
    - simpl. rewrite Hrl. transitivity (filter (fun v => memN v l) (nrange mn k));
        [|now rewrite (filter_mem_range l mn k)].
      apply filter_ext_in'. intros x Hx. rewrite Gb, Fg. assert (Hx' := Hx). apply nrange_In in Hx'.
      replace (N.to_nat (x - mn) <? k) with true by lia. simpl.
      destruct (memN x l) eqn:Ex.
      + destruct (memb _ _) eqn:Em; auto. exfalso. apply memb_In in Em. apply in_map_iff in Em.
        destruct Em as [h [Eh Hin]]. rewrite Hh in Hin. apply filter_In in Hin. destruct Hin as [Hin1 Hin2].
        apply nrange_In in Hin1. assert (h = x) by lia. subst. rewrite Ex in Hin2. discriminate.
      + replace (memb _ _) with true; auto. symmetry. apply memb_In. apply in_map_iff.
        exists x. split; auto. rewrite Hh. apply filter_In. now rewrite Ex.
    - cbn [seg_wf]. rewrite Lb, Fl. split; [unfold two64, u64_max in *; lia|]. split; auto. lia. }
  (* sorted array *)
  eexists. split; [reflexivity|]. simpl. rewrite ea_from_iter. repeat split; auto. now apply ea_from_wf.
Qed.

(** * compute_stats *)

Definition stats_inv (p : list N) (s : stats) : Prop :=
  st_count s = N.of_nat (length p) /\
  (p = [] -> st_min s = u64_max /\ st_max s = 0%N) /\
  (st_sorted s = true -> ninc p) /\
  (p = [] -> st_sorted s = true) /\
  (p <> [] -> In (st_min s) p /\ In (st_max s) p /\ forall y, In y p -> (st_min s <= y <= st_max s)%N).

Lemma ninc_snoc : forall l x, ninc l -> (forall y, In y l -> (y <= x)%N) -> ninc (l ++ [x]).
Proof.
  induction l; simpl; intros x H1 H2.
  - split; auto. tauto.
  - destruct H1 as [H1 H3]. split.
    + intros y Hy. apply in_app_or in Hy. destruct Hy as [Hy|[<-|[]]]; auto.
    + apply IHl; auto.
Qed.

Lemma stats_step_inv : forall p s v, (v < two64)%N -> stats_inv p s -> stats_inv (p ++ [v]) (stats_step s v).
Proof.
  intros p s v Hv [Hc [Hi [Hs [Hsi Hm]]]]. unfold stats_inv, stats_step. cbn [st_count st_min st_max st_sorted].
  rewrite app_length. simpl length.
  assert (Hnn : p ++ [v] <> []) by (destruct p; discriminate).
  split; [lia|]. split; [congruence|].
  destruct p as [|a p'] eqn:Ep.
  - destruct (Hi eq_refl) as [-> ->]. split; [simpl; intros _; split; auto; tauto|].
    split; [congruence|]. intros _. simpl app.
    assert (E1 : (if (v <? u64_max)%N then v else u64_max) = v)
      by (unfold u64_max, two64 in *; destruct (v <? 18446744073709551615)%N eqn:E; lia).
    assert (E2 : (if (0 <? v)%N then v else 0%N) = v) by (destruct (0 <? v)%N eqn:E; lia).
    rewrite E1, E2. repeat split; simpl; auto; destruct H as [<-|[]]; lia.
  - assert (Hp : p <> []) by (subst; discriminate). rewrite <- Ep in *.
    destruct (Hm Hp) as [M1 [M2 M3]]. split; [|split; [intros H; now apply app_eq_nil in H|]].
    + destruct (st_sorted s); simpl; [|discriminate].
      assert (Hcl : (1 <? st_count s + 1)%N = true) by (rewrite Hc; destruct p; [congruence|simpl length; lia]).
      rewrite Hcl. simpl. destruct (v <? (if (st_max s <? v)%N then v else st_max s))%N eqn:E; [discriminate|].
      intros _. apply ninc_snoc; auto. intros y Hy. specialize (M3 _ Hy).
      destruct (st_max s <? v)%N eqn:E2; lia.
    + intros _. split; [|split].
      * destruct (v <? st_min s)%N; apply in_or_app; simpl; auto.
      * destruct (st_max s <? v)%N; apply in_or_app; simpl; auto.
      * intros y Hy. apply in_app_or in Hy.
        destruct (v <? st_min s)%N eqn:E1; destruct (st_max s <? v)%N eqn:E2;
        (destruct Hy as [Hy|[<-|[]]]; [specialize (M3 _ Hy)|]; lia).
Qed.

Lemma stats_fold_inv : forall l p s, Forall (fun x => (x < two64)%N) l -> stats_inv p s ->
  stats_inv (p ++ l) (fold_left stats_step l s).
Proof.
  induction l as [|a l IH]; intros p s Hf Hi.
  - now rewrite app_nil_r.
  - inversion Hf; subst. simpl. replace (p ++ a :: l) with ((p ++ [a]) ++ l) by now rewrite <- app_assoc.
    apply IH; auto. now apply stats_step_inv.
Qed.

Lemma ninc_NoDup_sinc : forall l, ninc l -> NoDup l -> sinc l.
Proof.
  induction l; simpl; auto. intros [H1 H2] Hd. inversion Hd; subst. split; auto.
  intros y Hy. specialize (H1 _ Hy). assert (y <> a) by (intros ->; auto). lia.
Qed.

Lemma compute_stats_ok : forall l, valid_ids l -> NoDup l -> stats_ok (compute_stats l) l.
Proof.
  intros l Hv Hd. unfold compute_stats.
  assert (Hf : Forall (fun x => (x < two64)%N) l)
    by (eapply Forall_impl; [|exact Hv]; unfold u64_max, two64; simpl; intros; lia).
  set (s0 := {| st_min := u64_max; st_max := 0; st_count := 0; st_sorted := true |}).
  assert (H0 : stats_inv [] s0) by (unfold stats_inv; simpl; repeat split; auto; congruence).
  apply (stats_fold_inv l [] s0 Hf) in H0. simpl app in H0.
  destruct H0 as [Hc [Hi [Hs [Hsi Hm]]]].
  destruct (st_count (fold_left stats_step l s0) =? 0)%N eqn:E.
  - assert (l = []) by (destruct l; auto; rewrite Hc in E; simpl length in E; lia). subst l.
    unfold stats_ok. simpl. repeat split; auto; congruence.
  - unfold stats_ok. repeat split; auto.
    + intros H. apply ninc_NoDup_sinc; auto.
    + intros Hsf Hl. rewrite (Hsi Hl) in Hsf. discriminate.
    + now apply Hm.
    + now apply Hm.
    + now apply Hm.
    + now apply Hm.
Qed.

Theorem seg_encode_lossless : forall l, valid_ids l -> NoDup l ->
  exists s, seg_from_slice l = Some s /\ seg_iter s = l /\ seg_wf s.
Proof.
  intros l Hv Hd. apply from_stats_spec; auto. now apply compute_stats_ok.
Qed.

(** * len / get / position *)

Lemma Some_inj : forall {A} (a b : A), Some a = Some b -> a = b.
Proof. intros. congruence. Qed.

Lemma seg_iter_sinc : forall s, seg_wf s -> (forall a, s <> Arr a) -> sinc (seg_iter s).
Proof.
  intros [a b|a b h|a b bm|arr|arr] Hw Hn; simpl in *.
  - apply nrange_sinc.
  - apply sinc_filter, nrange_sinc.
  - apply sinc_filter, nrange_sinc.
  - tauto.
  - now destruct (Hn arr).
Qed.

Lemma seg_iter_valid : forall s, seg_wf s -> valid_ids (seg_iter s).
Proof.
  assert (G : forall a b, (b < two64)%N -> valid_ids (range_list a b)).
  { intros a b H. apply Forall_forall. intros x Hx. apply nrange_In in Hx. unfold two64, u64_max in *. lia. }
  intros [a b|a b h|a b bm|arr|arr] Hw; simpl in *.
  - apply G. lia.
  - apply Forall_forall. intros x Hx. apply filter_In in Hx. destruct Hx as [Hx _].
    eapply Forall_forall in Hx; [|apply G; apply Hw]. exact Hx.
  - apply Forall_forall. intros x Hx. apply filter_In in Hx. destruct Hx as [Hx _].
    eapply Forall_forall in Hx; [|apply G; apply Hw]. exact Hx.
  - tauto.
  - tauto.
Qed.

Lemma holes_filter : forall a b h, seg_wf (Holes a b h) ->
  seg_iter (Holes a b h) = filter (fun v => negb (memN v (ea_iter h))) (range_list a b).
Proof.
  intros a b h [H1 [H2 [H3 H4]]]. simpl. apply filter_ext_in'. intros x _.
  apply bsearch_is_err. apply ea_bsearch_ok; auto. now apply sinc_ninc.
Qed.

Lemma filter_nrange_map : forall (f : nat -> bool) n a,
  filter (fun v => f (N.to_nat (v - a))) (nrange a n) =
  map (fun i => (a + N.of_nat i)%N) (filter f (seq 0 n)).
Proof.
  intros f n a. 
  assert (E : nrange a n = map (fun i => (a + N.of_nat i)%N) (seq 0 n)).
  { replace a with (a + N.of_nat 0)%N at 1 by lia. generalize 0 as k.
    induction n; simpl; intros; auto. f_equal. rewrite <- IHn. f_equal. lia. }
  rewrite E. clear E. induction (seq 0 n) as [|i l IH]; [reflexivity|]. simpl.
  replace (N.to_nat (a + N.of_nat i - a)) with i by lia. rewrite IH. destruct (f i); reflexivity.
Qed.

Lemma seg_len_iter : forall s, seg_wf s -> seg_len s = length (seg_iter s).
Proof.
  intros [a b|a b h|a b bm|arr|arr] Hw.
  - simpl. unfold range_list. now rewrite nrange_length.
  - rewrite holes_filter by auto. simpl seg_len. destruct Hw as [H1 [H2 [H3 H4]]].
    assert (HL := filter_length_split (fun v => memN v (ea_iter h)) (range_list a b)).
    unfold range_list in *. rewrite filter_mem_range in HL; auto.
    + rewrite nrange_length in HL. lia.
    + rewrite Forall_forall in H4. intros x Hx. specialize (H4 _ Hx). lia.
  - simpl. destruct Hw as [H1 [H2 H3]]. unfold range_list. rewrite filter_nrange_map, map_length.
    unfold bm_count_zeros. rewrite bm_count_ones_spec by auto. rewrite H3.
    assert (C := cnt_le bm 0 (N.to_nat (b - a))). unfold cnt in *. lia.
  - simpl. apply ea_len_iter.
  - simpl. apply ea_len_iter.
Qed.

Lemma filter_length_le : forall {A} (f : A -> bool) l, length (filter f l) <= length l.
Proof. intros. generalize (filter_length_split f l). lia. Qed.

Lemma seg_get_iter : forall s i, seg_wf s -> seg_get s i = nth_error (seg_iter s) i.
Proof.
  intros s i Hw.
  assert (G : forall a b f, N.to_nat (b - a) <= i -> nth_error (filter f (range_list a b)) i = None).
  { intros a b f H. apply nth_error_None. etransitivity; [apply filter_length_le|].
    unfold range_list. now rewrite nrange_length. }
  destruct s as [a b|a b h|a b bm|arr|arr].
  - simpl in *. unfold range_list.
    destruct ((a + N.of_nat i <? two64)%N && (a + N.of_nat i <? b)%N) eqn:E.
    + rewrite nrange_nth by lia. reflexivity.
    + symmetry. apply nth_error_None. rewrite nrange_length. lia.
  - simpl. destruct (N.to_nat (b - a) <=? i) eqn:E; auto. symmetry. apply G. lia.
  - simpl. destruct (N.to_nat (b - a) <=? i) eqn:E; auto. symmetry. apply G. lia.
  - simpl. apply ea_get_iter.
  - simpl. apply ea_get_iter.
Qed.

Lemma first_index_unique : forall l v i j, first_index l v i -> first_index l v j -> i = j.
Proof.
  intros l v i j [H1 H2] [H3 H4]. destruct (Nat.lt_trichotomy i j) as [H|[H|H]]; auto; exfalso.
  - now apply (H4 i).
  - now apply (H2 j).
Qed.

Lemma NoDup_first_index : forall l v i, NoDup l -> nth_error l i = Some v -> first_index l v i.
Proof.
  intros l v i Hd Hi. split; auto. intros j Hj Hjv.
  assert (j = i); [|lia]. rewrite NoDup_nth_error in Hd. apply Hd; [|congruence].
  apply nth_error_Some. congruence.
Qed.

Lemma first_index_In : forall l v i, first_index l v i -> In v l.
Proof. intros l v i [H _]. now apply nth_error_In in H. Qed.

Lemma nth_error_filter_range : forall f a k v, (a <= v < a + N.of_nat k)%N -> f v = true ->
  nth_error (filter f (nrange a k)) (length (filter f (nrange a (N.to_nat (v - a))))) = Some v.
Proof.
  intros f a k v Hv Hf. set (m := N.to_nat (v - a)).
  replace k with (m + S (k - m - 1)) by lia. rewrite nrange_app, filter_app.
  rewrite nth_error_app2 by auto. rewrite Nat.sub_diag.
  replace (a + N.of_nat m)%N with v by lia. cbn [nrange filter]. rewrite Hf. reflexivity.
Qed.

Lemma take_while_count_sinc : forall l v, sinc l ->
  take_while_count (fun x => (x <? v)%N) l = length (filter (fun x => (x <? v)%N) l).
Proof.
  induction l as [|a l IH]; simpl; intros v H; auto. destruct H as [H1 H2].
  destruct (a <? v)%N eqn:E; simpl; auto. rewrite filter_all_false; auto.
  intros x Hx. specialize (H1 _ Hx). lia.
Qed.

Lemma position_of_spec : forall l v, 
  match position_of v l with
  | Some i => first_index l v i
  | None => ~ In v l
  end.
Proof.
  induction l as [|a l IH]; intros v; [simpl; auto|].
  cbn [position_of]. destruct (a =? v)%N eqn:E.
  - apply N.eqb_eq in E. subst. split; auto. intros; lia.
  - specialize (IH v). destruct (position_of v l) as [i|]; simpl.
    + destruct IH as [H1 H2]. split; auto. intros [|j] Hj; simpl; [intros H; injection H; lia|].
      apply H2. lia.
    + intros [H|H]; [lia|auto].
Qed.

Lemma seg_position_spec : forall s v, seg_wf s ->
  match seg_position s v with
  | Some i => first_index (seg_iter s) v i
  | None => ~ In v (seg_iter s)
  end.
Proof.
  intros s v Hw. destruct s as [a b|a b h|a b bm|arr|arr].
  - simpl. unfold in_range, range_list. destruct ((a <=? v)%N && (v <? b)%N) eqn:E.
    + apply NoDup_first_index; [apply sinc_NoDup, nrange_sinc|]. rewrite nrange_nth by lia. f_equal. lia.
    + rewrite nrange_In. lia.
  - assert (Hi := holes_filter a b h Hw). assert (Hs := seg_iter_sinc _ Hw ltac:(discriminate)).
    rewrite Hi in *. cbn [seg_position]. destruct Hw as [H1 [H2 [H3 H4]]].
    rewrite (bsearch_is_err (ea_iter h) v) by (apply ea_bsearch_ok; auto; now apply sinc_ninc).
    unfold in_range. destruct ((a <=? v)%N && (v <? b)%N) eqn:E; simpl.
    + destruct (memN v (ea_iter h)) eqn:Em; simpl.
      * rewrite filter_In. cbv beta. rewrite Em. simpl. intuition discriminate.
      * apply NoDup_first_index; [now apply sinc_NoDup|].
        unfold range_list.
        assert (Hn := nth_error_filter_range (fun v => negb (memN v (ea_iter h))) a (N.to_nat (b - a)) v
                        ltac:(lia) ltac:(cbv beta; now rewrite Em)).
        rewrite <- Hn. f_equal. rewrite take_while_count_sinc by auto.
        assert (HL := filter_length_split (fun v => memN v (ea_iter h)) (nrange a (N.to_nat (v - a)))).
        rewrite nrange_length in HL.
        replace (filter (fun x => (x <? v)%N) (ea_iter h)) with
          (filter (fun v => memN v (ea_iter h)) (nrange a (N.to_nat (v - a)))); [lia|].
        apply sinc_ext.
        -- apply sinc_filter, nrange_sinc.
        -- now apply sinc_filter.
        -- intros x. rewrite !filter_In, nrange_In, memN_In. rewrite Forall_forall in H4.
           split; intros [A B]; split; auto; try lia. specialize (H4 _ A). lia.
    + rewrite filter_In. unfold range_list. rewrite nrange_In. lia.
  - assert (Hs := seg_iter_sinc _ Hw ltac:(discriminate)). destruct Hw as [H1 [H2 H3]].
    simpl in *. unfold in_range. destruct ((a <=? v)%N && (v <? b)%N) eqn:E; simpl.
    + destruct (bm_get bm (N.to_nat (v - a))) eqn:Eg.
      * apply NoDup_first_index; [now apply sinc_NoDup|].
        unfold range_list in *.
        assert (Hn := nth_error_filter_range (fun v => bm_get bm (N.to_nat (v - a))) a (N.to_nat (b - a)) v
                        ltac:(lia) Eg).
        rewrite <- Hn. f_equal.
        rewrite filter_nrange_map, map_length. unfold bms_count_zeros.
        rewrite bms_count_ones_spec.
        -- assert (C := cnt_le bm 0 (N.to_nat (v - a))). unfold cnt in *. lia.
        -- assert (Hb := bm_len_bytes bm H2). lia.
      * rewrite filter_In. cbv beta. rewrite Eg. intuition discriminate.
    + rewrite filter_In. unfold range_list. rewrite nrange_In. lia.
  - simpl in *. destruct Hw as [H1 [H2 [H3 H4]]].
    assert (Hb := ea_bsearch_ok arr v H1 (sinc_ninc _ H2)).
    destruct (ea_bsearch arr v) as [i|i]; simpl in *.
    + apply NoDup_first_index; auto. now apply sinc_NoDup.
    + eapply bsearch_err_notin. exact Hb.
  - simpl. apply position_of_spec.
Qed.

Lemma seg_position_iff : forall s v i, seg_wf s ->
  (seg_position s v = Some i <-> first_index (seg_iter s) v i).
Proof.
  intros s v i Hw. assert (H := seg_position_spec s v Hw).
  destruct (seg_position s v) as [j|].
  - split; [intros E; injection E as <-; auto|]. intros Hi. f_equal. eapply first_index_unique; eauto.
  - split; [discriminate|]. intros Hi. now apply first_index_In in Hi.
Qed.

Theorem seg_len_get_position : forall s, seg_wf s ->
  seg_len s = length (seg_iter s) /\
  (forall i, seg_get s i = nth_error (seg_iter s) i) /\
  (forall v i, seg_position s v = Some i <-> first_index (seg_iter s) v i) /\
  (forall v, seg_position s v = None <-> ~ In v (seg_iter s)).
Proof.
  intros s Hw. split; [now apply seg_len_iter|]. split; [intros; now apply seg_get_iter|].
  split; [intros; now apply seg_position_iff|].
  intros v. assert (H := seg_position_spec s v Hw). destruct (seg_position s v).
  - apply first_index_In in H. split; [discriminate|tauto].
  - tauto.
Qed.
