(* C28: fragments overlapping a range of row offsets. *)
From Coq Require Import List Arith NArith Bool Lia.
From Verif Require Import Lib AMap RowIdsModel SerdeModel ReadParamsModel TreeMapModel DeletionModel StreamModel TakeModel.
Import ListNotations.
Local Open Scope nat_scope.

(* rows before fragment i *)
Definition rows_before (fs : list fmeta) (i : nat) : nat := sumn (map fm_rows (firstn i fs)).
(* the fragments holding a row of start..end_, with the offset of their first row *)
Definition overlapping_frags (fs : list fmeta) (start end_ : nat) : list (nat * fmeta) :=
  filter (fun '(o, f) => existsb (fun r => (start <=? r) && (r <? end_)) (seq o (fm_rows f)))
         (combine (map (rows_before fs) (seq 0 (length fs))) fs).

Lemma offsets_from_spec : forall fs s, fragment_offsets_from s fs = map (fun i => s + rows_before fs i) (seq 0 (S (length fs))).
Proof.
  induction fs as [|f t IH]; intros s; cbn [fragment_offsets_from length].
  - cbn. now rewrite Nat.add_0_r.
  - rewrite IH. change (seq 0 (S (S (length t)))) with (0 :: seq 1 (S (length t))). cbn [map]. f_equal.
    + unfold rows_before; cbn. lia.
    + rewrite <- seq_shift, map_map. apply map_ext. intros i. unfold rows_before. cbn [firstn map sumn fold_right]. unfold sumn. simpl. lia.
Qed.
Lemma offsets_nth : forall fs i, i <= length fs -> nth_error (fragment_offsets fs) i = Some (rows_before fs i).
Proof.
  intros fs i H. unfold fragment_offsets. rewrite offsets_from_spec, nth_error_map.
  rewrite (nth_error_nth' _ 0) by (rewrite seq_length; lia). cbn [option_map]. rewrite seq_nth by lia. reflexivity.
Qed.
Lemma before_S : forall fs i f, nth_error fs i = Some f -> rows_before fs (S i) = rows_before fs i + fm_rows f.
Proof.
  unfold rows_before. induction fs as [|g t IH]; intros [|i] f H; cbn in H; try discriminate.
  - injection H as ->. cbn. lia.
  - specialize (IH i f H). cbn [firstn map] in *. unfold sumn in *. simpl. simpl in IH. lia.
Qed.
Lemma before_mono : forall fs i j, i <= j -> rows_before fs i <= rows_before fs j.
Proof.
  intros fs i j H. unfold rows_before. revert i j H. induction fs as [|f t IH]; intros [|i] [|j] H; simpl; try lia.
  specialize (IH i j ltac:(lia)). unfold sumn in *. simpl. lia.
Qed.

(* the pairs from fragment i on *)
Definition pairs_from (fs : list fmeta) (i : nat) : list (nat * fmeta) :=
  combine (map (rows_before fs) (seq i (length fs - i))) (skipn i fs).
Lemma pairs_0 : forall fs, combine (map (rows_before fs) (seq 0 (length fs))) fs = pairs_from fs 0.
Proof. intros. unfold pairs_from. now rewrite Nat.sub_0_r. Qed.
Lemma skipn_cons : forall {A} (l : list A) i x, nth_error l i = Some x -> skipn i l = x :: skipn (S i) l.
Proof. induction l; intros [|i] x H; cbn in H; try discriminate; [now injection H as ->|]. cbn [skipn]. now rewrite (IHl i x H). Qed.
Lemma pairs_step : forall fs i f, nth_error fs i = Some f ->
  pairs_from fs i = (rows_before fs i, f) :: pairs_from fs (S i).
Proof.
  intros fs i f H. unfold pairs_from. assert (i < length fs) by (apply nth_error_Some; now rewrite H).
  replace (length fs - i) with (S (length fs - S i)) by lia. cbn [seq map]. rewrite (skipn_cons fs i f H). reflexivity.
Qed.
Lemma pairs_end : forall fs i, length fs <= i -> pairs_from fs i = [].
Proof. intros. unfold pairs_from. now rewrite (skipn_all2 fs) , combine_nil by auto. Qed.

Lemma hits_iff : forall o n start end_, existsb (fun r => (start <=? r) && (r <? end_)) (seq o n) = true <->
  exists r, o <= r < o + n /\ start <= r < end_.
Proof.
  intros. rewrite existsb_exists. split; intros [r H]; exists r; rewrite in_seq, andb_true_iff, Nat.leb_le, Nat.ltb_lt in *; lia.
Qed.
Lemma hits : forall o n start end_, start < end_ -> 0 < n ->
  existsb (fun r => (start <=? r) && (r <? end_)) (seq o n) = (o <? end_) && (start <? o + n).
Proof.
  intros o n start end_ H H0. apply eq_true_iff_eq. rewrite hits_iff, andb_true_iff, !Nat.ltb_lt. split.
  - intros [r Hr]. lia.
  - intros. exists (Nat.max o start). lia.
Qed.

Section Range.
  Variables (fs : list fmeta) (start end_ : nat).
  Hypothesis Hpos : forall f, In f fs -> 0 < fm_rows f.
  Hypothesis Hse : start < end_.
  Let hit := fun '(o, f) => existsb (fun r => (start <=? r) && (r <? end_)) (seq o (fm_rows f)).

  Lemma none_after : forall k i, length fs - i = k -> end_ <= rows_before fs i -> filter hit (pairs_from fs i) = [].
  Proof.
    induction k; intros i Hk Hi.
    - rewrite pairs_end by lia. reflexivity.
    - destruct (nth_error fs i) as [f|] eqn:E; [|apply nth_error_None in E; lia].
      rewrite (pairs_step _ _ _ E). cbn [filter]. unfold hit at 1.
      rewrite hits by (auto; apply Hpos; eapply nth_error_In; eauto).
      replace (rows_before fs i <? end_) with false by (symmetry; apply Nat.ltb_ge; lia). cbn [andb].
      apply IHk; [lia|]. rewrite (before_S _ _ _ E). lia.
  Qed.

  Lemma none_before : forall i, i <= length fs -> rows_before fs i <= start -> filter hit (pairs_from fs 0) = filter hit (pairs_from fs i).
  Proof.
    induction i; intros Hi Hr; auto.
    assert (rows_before fs i <= rows_before fs (S i)) by (apply before_mono; lia).
    rewrite IHi by lia.
    destruct (nth_error fs i) as [f|] eqn:E; [|apply nth_error_None in E; lia].
    rewrite (pairs_step _ _ _ E). cbn [filter]. unfold hit at 1.
    rewrite hits by (auto; apply Hpos; eapply nth_error_In; eauto).
    rewrite (before_S _ _ _ E) in Hr.
    replace (start <? rows_before fs i + fm_rows f) with false by (symmetry; apply Nat.ltb_ge; lia).
    now rewrite andb_false_r.
  Qed.

  Lemma skip_offsets : forall i, i < length fs ->
    skipn i (fragment_offsets fs) = rows_before fs i :: skipn (S i) (fragment_offsets fs).
  Proof. intros. apply skipn_cons. apply offsets_nth. lia. Qed.

  Lemma collect_spec : forall k i, length fs - i = k -> i <= length fs ->
    (i < length fs -> start < rows_before fs (S i)) ->
    collect_frags (skipn i fs) (skipn i (fragment_offsets fs)) start end_ = filter hit (pairs_from fs i).
  Proof.
    induction k; intros i Hk Hi Hs.
    - rewrite (skipn_all2 fs) by lia. rewrite pairs_end by lia. reflexivity.
    - destruct (nth_error fs i) as [f|] eqn:E; [|apply nth_error_None in E; lia].
      assert (Hf := Hpos f (nth_error_In _ _ E)).
      rewrite (skipn_cons _ _ _ E), skip_offsets by lia. cbn [collect_frags].
      specialize (Hs ltac:(lia)). rewrite (before_S _ _ _ E) in Hs.
      replace (rows_before fs i + fm_rows f <=? start) with false by (symmetry; apply Nat.leb_gt; lia). rewrite orb_false_r.
      destruct (end_ <=? rows_before fs i) eqn:Ee.
      + apply Nat.leb_le in Ee. symmetry. apply (none_after (S k)); auto.
      + apply Nat.leb_gt in Ee. rewrite (pairs_step _ _ _ E). cbn [filter]. unfold hit at 1.
        rewrite hits by auto.
        replace (rows_before fs i <? end_) with true by (symmetry; apply Nat.ltb_lt; lia).
        replace (start <? rows_before fs i + fm_rows f) with true by (symmetry; apply Nat.ltb_lt; lia). cbn [andb].
        f_equal. apply IHk; [lia|lia|]. intros Hl. 
        pose proof (before_mono fs (S i) (S (S i)) ltac:(lia)). rewrite (before_S _ _ _ E) in H. lia.
  Qed.
End Range.

Theorem fragments_by_offset_range_spec : forall fs r start end_, (forall f, In f fs -> 0 < fm_rows f) -> start < end_ ->
  bsearch_ok (fragment_offsets fs) start r ->
  fragments_by_offset_range fs r start end_ = overlapping_frags fs start end_.
Proof.
  intros fs r start end_ Hpos Hse Hr. unfold fragments_by_offset_range, overlapping_frags. rewrite pairs_0.
  set (i := start_index r).
  assert (Hi : i <= length fs /\ rows_before fs i <= start /\ (i < length fs -> start < rows_before fs (S i))).
  { unfold i. assert (Hlen : length (fragment_offsets fs) = S (length fs)).
    { unfold fragment_offsets. rewrite offsets_from_spec, map_length, seq_length. reflexivity. }
    destruct r as [j|j]; cbn [start_index bsearch_ok] in *.
    - assert (j < S (length fs)) by (rewrite <- Hlen; apply nth_error_Some; now rewrite Hr).
      rewrite offsets_nth in Hr by lia. injection Hr as Hr. split; [lia|]. split; [lia|]. intros Hj.
      destruct (nth_error fs j) as [f|] eqn:E; [|apply nth_error_None in E; lia].
      rewrite (before_S _ _ _ E). specialize (Hpos f (nth_error_In _ _ E)). lia.
    - destruct Hr as [Hn [Hj Hb]].
      assert (0 < j).
      { destruct j; [|lia]. pose proof (proj2 (Hb 0 (rows_before fs 0) (offsets_nth fs 0 ltac:(lia)))) as H.
        unfold rows_before in H. cbn in H.
        destruct start; [|exfalso; assert (0 < 0) by (apply H; lia); lia].
        exfalso. apply Hn. change 0 with (rows_before fs 0). eapply nth_error_In. apply (offsets_nth fs 0). lia. }
      split; [lia|]. split.
      + pose proof (proj1 (Hb (j - 1) _ (offsets_nth fs (j - 1) ltac:(lia)))) as H'. specialize (H' ltac:(lia)). lia.
      + intros Hl. replace (S (j - 1)) with j by lia.
        assert (~ rows_before fs j < start) as H1.
        { intros C. apply (proj2 (Hb j _ (offsets_nth fs j ltac:(lia)))) in C. lia. }
        assert (rows_before fs j <> start); [|lia]. intros C. apply Hn. rewrite <- C. eapply nth_error_In. apply offsets_nth. lia. }
  destruct Hi as [H1 [H2 H3]].
  rewrite (none_before fs start end_ Hpos Hse i H1 H2). now apply (collect_spec fs start end_ Hpos Hse (length fs - i)).
Qed.

Theorem offset_range_empty_fragment_refuted : exists fs r, bsearch_ok (fragment_offsets fs) 0 r /\
  fragments_by_offset_range fs r 0 5 = [] /\ overlapping_frags fs 0 5 <> [].
Proof.
  exists [ {| fm_id := 0; fm_physical := None; fm_deleted := None |};
           {| fm_id := 1; fm_physical := Some 10; fm_deleted := None |} ], (FoundAt 0).
  repeat split; vm_compute; auto; discriminate.
Qed.

Theorem offset_range_empty_range_refuted : exists fs r start, (forall f, In f fs -> 0 < fm_rows f) /\
  bsearch_ok (fragment_offsets fs) start r /\ overlapping_frags fs start start = [] /\
  fragments_by_offset_range fs r start start <> [].
Proof.
  exists [ {| fm_id := 1; fm_physical := Some 10; fm_deleted := None |} ], (InsertAt 1), 5.
  split; [intros f [<-|[]]; vm_compute; lia|]. split; [|split; vm_compute; auto; discriminate].
  split; [vm_compute; intuition lia|]. split; [vm_compute; lia|].
  intros [|[|[|j]]] x H; vm_compute in H; try discriminate; injection H as <-; vm_compute; split; lia.
Qed.

Example offset_range_ex : fragments_by_offset_range
    [ {| fm_id := 0; fm_physical := Some 4; fm_deleted := Some (Some 1) |}; {| fm_id := 2; fm_physical := Some 5; fm_deleted := None |};
      {| fm_id := 3; fm_physical := Some 2; fm_deleted := None |} ] (InsertAt 1) 2 8 =
    [ (0, {| fm_id := 0; fm_physical := Some 4; fm_deleted := Some (Some 1) |}); (3, {| fm_id := 2; fm_physical := Some 5; fm_deleted := None |}) ].
Proof. reflexivity. Qed.
