(* C64: RowIdTreeMap::from(&RowIdSequence) *)
From Coq Require Import List Arith NArith Bool Lia ZifyBool ZifyN ZifyNat.
From Verif Require Import Lib AMap RowIdsModel RowIdsSpec EncArrProofs BitmapProofs SegProofs SerdeModel SerdeProofs TreeMapModel TreeMapProofs TreeMapProofs2.
Import ListNotations.
Local Open Scope N_scope.
Local Opaque memN.

(* the range a segment covers *)
Definition seg_span (s : segment) : option (N * N) :=
  match s with Range a b | Holes a b _ | BMap a b _ => Some (a, b) | _ => None end.
(* spans avoid the empty range 0..0 and the last fragment *)
Definition span_ok (s : segment) : Prop :=
  match seg_span s with Some (a, b) => 0 < b /\ b <= u32_max * two32 | None => True end.
(* ids inside the span of a segment which the segment itself skips *)
Definition skipped (s : segment) (x : N) : Prop :=
  match seg_span s with Some (a, b) => a <= x < b /\ ~ In x (seg_iter s) | None => False end.

Lemma remove_list_spec : forall l m x, Forall (fun v => v < two64) l -> x < two64 ->
  t_contains x (fold_left (fun m v => fst (t_remove v m)) l m) = t_contains x m && negb (memN x l).
Proof.
  induction l as [|v l IH]; intros m x Hv Hx; cbn [fold_left].
  - rewrite memN_nil. now rewrite andb_true_r.
  - inversion Hv; subst. rewrite IH by auto. rewrite remove_spec by auto.
    replace (memN x (v :: l)) with ((x =? v) || memN x l).
    + destruct (x =? v), (memN x l), (t_contains x m); reflexivity.
    + apply eq_true_iff_eq. rewrite orb_true_iff, !memN_In, N.eqb_eq. simpl. intuition.
Qed.
Lemma remove_list_wf : forall l m, t_wf m -> t_wf (fold_left (fun m v => fst (t_remove v m)) l m).
Proof. induction l; intros; cbn [fold_left]; auto using remove_wf. Qed.
Lemma extend_wf : forall l m, t_wf m -> t_wf (t_extend l m).
Proof. unfold t_extend. induction l; intros; cbn [fold_left]; auto using insert_wf. Qed.

Lemma remove_unset_wf : forall n a i bm m, t_wf m -> t_wf (remove_unset a n i bm m).
Proof.
  induction n; intros a i bm m W; cbn [remove_unset]; auto. apply IHn. destruct (bm_get bm i); auto using remove_wf.
Qed.
Lemma remove_unset_spec : forall n a i bm m x, a + N.of_nat n < two64 -> x < two64 ->
  t_contains x (remove_unset a n i bm m) =
  t_contains x m && negb ((a <=? x) && (x <? a + N.of_nat n) && negb (bm_get bm (i + N.to_nat (x - a)))).
Proof.
  induction n as [|n IH]; intros a i bm m x Ha Hx; cbn [remove_unset].
  - replace ((a <=? x) && (x <? a + N.of_nat 0)) with false by lia. now rewrite andb_true_r.
  - rewrite IH by lia. destruct (N.eqb_spec x a) as [->|n0].
    + replace ((a + 1 <=? a) && (a <? a + 1 + N.of_nat n)) with false by lia.
      replace ((a <=? a) && (a <? a + N.of_nat (S n))) with true by lia. rewrite N.sub_diag. cbn [N.to_nat].
      rewrite Nat.add_0_r. cbn [andb negb]. rewrite andb_true_r. destruct (bm_get bm i) eqn:E; cbn [negb].
      * now rewrite andb_true_r.
      * rewrite remove_spec by lia. rewrite N.eqb_refl. cbn [negb andb]. now rewrite andb_false_r.
    + assert (Hm : t_contains x (if bm_get bm i then m else fst (t_remove a m)) = t_contains x m).
      { destruct (bm_get bm i); auto. rewrite remove_spec by lia. replace (x =? a) with false by lia. reflexivity. }
      rewrite Hm. f_equal. f_equal.
      destruct ((a + 1 <=? x) && (x <? a + 1 + N.of_nat n)) eqn:E.
      * replace ((a <=? x) && (x <? a + N.of_nat (S n))) with true by lia. cbn [andb]. do 2 f_equal. lia.
      * replace ((a <=? x) && (x <? a + N.of_nat (S n))) with false by lia. reflexivity.
Qed.

Lemma fragment_id_lt : forall x k, x < k * two32 -> k <= u32_max -> fragment_id x < k.
Proof.
  intros x k H Hk. assert (x < two64) by (unfold two32, two64, u32_max in *; lia).
  rewrite fragment_id_small by auto. apply N.div_lt_upper_bound; [unfold two32; lia|]. lia.
Qed.

Lemma add_range_spec : forall a b m, t_wf m -> 0 < b -> b <= u32_max * two32 -> a <= b ->
  exists m', add_range a b m = Some m' /\ t_wf m' /\
    forall x, x < two64 -> (t_contains x m' = true <-> t_contains x m = true \/ a <= x < b).
Proof.
  intros a b m W H0 H1 H2.
  assert (Hb : b < two64) by (unfold two32, two64, u32_max in *; lia).
  destruct (insert_range_spec (Included a) (Excluded b) m W) as [m' [c [E1 [E2 [E3 _]]]]]; cbn; auto; try lia; try congruence.
  - intros E. inversion E. lia.
  - apply fragment_id_lt; [lia|apply N.le_refl].
  - exists m'. unfold add_range. rewrite E1. split; auto.
Qed.

Lemma add_segment_spec : forall s m, t_wf m -> seg_wf s -> span_ok s ->
  exists m', add_segment (Some m) s = Some m' /\ t_wf m' /\
    forall x, x < two64 -> (t_contains x m' = true <-> (t_contains x m = true /\ ~ skipped s x) \/ In x (seg_iter s)).
Proof.
  intros s m W Hs Ho. unfold add_segment. cbn [obind]. destruct s as [a b|a b h|a b bm|arr|arr]; cbn [span_ok seg_span] in *;
    unfold span_ok in Ho; cbn [seg_span] in Ho.
  - destruct (add_range_spec a b m W) as [m' [E1 [E2 E3]]]; try (simpl in Hs; lia). exists m'. split; auto. split; auto.
    intros x Hx. rewrite (E3 x Hx). unfold skipped. cbn [seg_span seg_iter]. rewrite range_list_In. tauto.
  - destruct Hs as [Hab [Hh [Hsi Hin]]]. destruct (add_range_spec a b m W) as [m' [E1 [E2 E3]]]; try lia.
    rewrite E1. cbn [omap]. eexists. split; [reflexivity|]. split; [now apply remove_list_wf|].
    intros x Hx. rewrite remove_list_spec; auto.
    2:{ eapply Forall_impl; [|exact Hin]. cbn. intros y Hy. lia. }
    assert (Hiter : In x (seg_iter (Holes a b h)) <-> a <= x < b /\ ~ In x (ea_iter h)).
    { cbn [seg_iter]. rewrite filter_In, range_list_In. cbv beta. rewrite (bsearch_is_err _ _ _ (ea_bsearch_ok h x Hh (sinc_ninc _ Hsi))).
      rewrite negb_true_iff, <- not_true_iff_false, memN_In. tauto. }
    unfold skipped. cbn [seg_span]. rewrite andb_true_iff, negb_true_iff, <- not_true_iff_false, memN_In, (E3 x Hx), Hiter.
    rewrite Forall_forall in Hin. assert (Hi := Hin x). destruct (in_dec N.eq_dec x (ea_iter h)) as [HI|HI]; tauto.
  - destruct Hs as [Hab [Hbm Hlen]]. destruct (add_range_spec a b m W) as [m' [E1 [E2 E3]]]; try lia.
    rewrite E1. cbn [omap]. eexists. split; [reflexivity|]. split; [now apply remove_unset_wf|].
    intros x Hx. rewrite remove_unset_spec by lia. rewrite N2Nat.id. replace (a + (b - a)) with b by lia. cbn [Nat.add].
    assert (Hiter : In x (seg_iter (BMap a b bm)) <-> a <= x < b /\ bm_get bm (N.to_nat (x - a)) = true).
    { cbn [seg_iter]. rewrite filter_In, range_list_In. tauto. }
    unfold skipped. cbn [seg_span]. rewrite andb_true_iff, (E3 x Hx), Hiter.
    destruct (bm_get bm (N.to_nat (x - a))) eqn:Eg; destruct ((a <=? x) && (x <? b)) eqn:El; cbn [negb andb];
      assert (a <= x < b \/ ~ (a <= x < b)) by lia; intuition (try discriminate; try lia).
  - eexists. split; [reflexivity|]. split; [now apply extend_wf|]. intros x Hx.
    destruct Hs as [Hw [_ [_ Hv]]]. rewrite extend_spec; auto.
    + rewrite orb_true_iff, memN_In. unfold skipped. cbn. tauto.
    + eapply Forall_impl; [|exact Hv]. cbn. unfold u64_max, two64. intros; lia.
  - eexists. split; [reflexivity|]. split; [now apply extend_wf|]. intros x Hx.
    destruct Hs as [Hw [_ Hv]]. rewrite extend_spec; auto.
    + rewrite orb_true_iff, memN_In. unfold skipped. cbn. tauto.
    + eapply Forall_impl; [|exact Hv]. cbn. unfold u64_max, two64. intros; lia.
Qed.

(* no segment skips an id that an earlier segment holds *)
Definition no_reskip (q : rowseq) : Prop :=
  forall q1 s q2 x, q = q1 ++ s :: q2 -> skipped s x -> ~ In x (seq_iter q1).

Theorem seq_to_set_spec : forall q, seq_wf q -> Forall span_ok q -> no_reskip q ->
  exists m, t_of_seq q = Some m /\ t_wf m /\ forall x, x < two64 -> (t_contains x m = true <-> In x (seq_iter q)).
Proof.
  intros q. unfold t_of_seq. induction q as [|s q IH] using rev_ind; intros Hw Ho Hn.
  - exists []. split; [reflexivity|]. split; [split; [exact I|constructor]|]. intros x _. cbn. intuition discriminate.
  - unfold seq_wf in Hw. apply Forall_app in Hw, Ho. destruct Hw as [W1 W2], Ho as [O1 O2]. inversion W2; inversion O2; subst.
    destruct IH as [m [E1 [E2 E3]]]; auto.
    { intros q1 t q2 x -> Hs. apply (Hn q1 t (q2 ++ [s])); auto. now rewrite <- app_assoc. }
    rewrite fold_left_app. cbn [fold_left]. rewrite E1.
    destruct (add_segment_spec s m E2) as [m' [F1 [F2 F3]]]; auto. exists m'. split; auto. split; auto.
    intros x Hx. rewrite (F3 x Hx), (E3 x Hx). unfold seq_iter. rewrite flat_map_app, in_app_iff. cbn [flat_map].
    rewrite app_nil_r. assert (Hk := Hn q s [] x eq_refl). unfold seq_iter in Hk. tauto.
Qed.

(* witnesses that both side conditions are needed *)
Theorem seq_to_set_reskip_refuted :
  seq_wf [Range 5 6; Holes 0 10 (EU16 5 [0])] /\ NoDup (seq_iter [Range 5 6; Holes 0 10 (EU16 5 [0])]) /\
  In 5 (seq_iter [Range 5 6; Holes 0 10 (EU16 5 [0])]) /\
  exists m, t_of_seq [Range 5 6; Holes 0 10 (EU16 5 [0])] = Some m /\ t_contains 5 m = false.
Proof.
  split; [|split; [|split]].
  - constructor; [cbn; unfold two64; lia|]. constructor; [|constructor]. cbn. unfold two64, u16_max.
    split; [lia|]. split.
    + split; [constructor; [lia|constructor]|]. split; [constructor; [lia|constructor]|]. intros _. now left.
    + split; [split; [intros ? []|exact I]|]. constructor; [lia|constructor].
  - vm_compute. repeat (constructor; [cbn; intuition discriminate|]). constructor.
  - vm_compute. auto.
  - eexists. split; vm_compute; reflexivity.
Qed.
Theorem seq_to_set_empty_refuted : seq_iter [Range 0 0] = [] /\ exists m, t_of_seq [Range 0 0] = Some m /\ t_contains 0 m = true.
Proof. split; [reflexivity|]. eexists. split; vm_compute; reflexivity. Qed.

Example seq_to_set_ex : seq_wf [Holes 0 10 (EU16 5 [0]); Range 5 6] /\ Forall span_ok [Holes 0 10 (EU16 5 [0]); Range 5 6] /\
  no_reskip [Holes 0 10 (EU16 5 [0]); Range 5 6] /\
  exists m, t_of_seq [Holes 0 10 (EU16 5 [0]); Range 5 6] = Some m /\ t_contains 5 m = true.
Proof.
  split; [|split; [|split]].
  - constructor; [|constructor; [cbn; unfold two64; lia|constructor]]. cbn. unfold two64, u16_max.
    split; [lia|]. split.
    + split; [constructor; [lia|constructor]|]. split; [constructor; [lia|constructor]|]. intros _. now left.
    + split; [split; [intros ? []|exact I]|]. constructor; [lia|constructor].
  - constructor; [|constructor; [|constructor]]; unfold span_ok; cbn; unfold u32_max, two32; lia.
  - intros q1 s q2 x E Hs. destruct q1 as [|t [|u q1]]; inversion E; subst.
    + intros [].
    + exfalso. unfold skipped in Hs. cbn [seg_span seg_iter] in Hs. rewrite range_list_In in Hs. tauto.
    + destruct q1; discriminate.
  - eexists. split; vm_compute; reflexivity.
Qed.
