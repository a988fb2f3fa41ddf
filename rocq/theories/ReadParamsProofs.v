From Coq Require Import List Arith NArith Bool Lia ZifyBool ZifyN ZifyNat.
From Verif Require Import Lib RowIdsModel RowIdsSpec SegProofs SeqProofs ReadParamsModel.
Import ListNotations.
Local Open Scope nat_scope.

Lemma seq_firstn_skipn : forall n a s l, s + l <= n -> firstn l (skipn s (seq a n)) = seq (a + s) l.
Proof.
  intros n a s l H. replace n with (s + (l + (n - s - l))) by lia. rewrite !seq_app.
  rewrite skipn_app, skipn_all2 by (rewrite seq_length; lia). rewrite seq_length, Nat.sub_diag.
  cbn [app skipn]. rewrite firstn_app, seq_length, Nat.sub_diag. cbn [firstn]. rewrite app_nil_r.
  apply firstn_all2. rewrite seq_length. lia.
Qed.

(** C26 *)
Theorem slice_then_expand : forall p total s l,
  (forall a b, p = PRange a b -> a <= b) ->
  s + l <= length (to_offsets_total p total) ->
  exists p', p_slice p s l = Some p' /\
             to_offsets p' = Some (firstn l (skipn s (to_offsets_total p total))).
Proof.
  intros p total s l Hab H. destruct p; cbn [to_offsets_total p_slice] in *; unfold rng in *;
    rewrite ?seq_length in H.
  - specialize (Hab a b eq_refl). replace (b <? a + s + l) with false by lia. eexists. split; [reflexivity|]. cbn [to_offsets]. unfold rng.
    rewrite seq_firstn_skipn by lia. do 2 f_equal. lia.
  - eexists. split; [reflexivity|]. cbn [to_offsets]. unfold rng. rewrite seq_firstn_skipn by lia. do 2 f_equal. lia.
  - replace (e <? s + l) with false by lia. eexists. split; [reflexivity|]. cbn [to_offsets]. unfold rng.
    rewrite seq_firstn_skipn by lia. do 2 f_equal. lia.
  - eexists. split; [reflexivity|]. cbn [to_offsets]. unfold rng. rewrite seq_firstn_skipn by lia. do 2 f_equal. lia.
  - replace (length l0 <? s + l) with false by lia. eexists. split; [reflexivity|]. reflexivity.
Qed.

(* requests whose size is known are never sliced beyond their end *)
Theorem slice_rejects : forall p total s l,
  (forall s', p <> PFrom s') -> p <> PFull -> (forall a b, p = PRange a b -> a <= b) ->
  length (to_offsets_total p total) < s + l -> p_slice p s l = None.
Proof.
  intros p total s l H1 H2 H3 H. destruct p; cbn [to_offsets_total p_slice] in *; unfold rng in *;
    rewrite ?seq_length in H; try congruence.
  - specialize (H3 a b eq_refl). replace (b <? a + s + l) with true by lia. reflexivity.
  - replace (e <? s + l) with true by lia. reflexivity.
  - replace (length l0 <? s + l) with true by lia. reflexivity.
Qed.

Theorem valid_iff_in_bounds : forall p len,
  (valid_given_len p len = true -> forall o, In o (to_offsets_total p len) -> o < len) /\
  (to_offsets_total p len <> [] -> (forall o, In o (to_offsets_total p len) -> o < len) ->
   valid_given_len p len = true).
Proof.
  intros p len. split.
  - intros H o Ho. destruct p; cbn [to_offsets_total valid_given_len] in *; unfold rng in *;
      try (apply in_seq in Ho; lia).
    rewrite forallb_forall in H. specialize (H _ Ho). lia.
  - intros Hne H. destruct p; cbn [to_offsets_total valid_given_len] in *; unfold rng in *.
    + assert (a < b) by (destruct (Nat.lt_ge_cases a b); auto; replace (b - a) with 0 in Hne by lia; now destruct Hne).
      assert (Hb := H (b - 1)). rewrite in_seq in Hb. lia.
    + reflexivity.
    + destruct e; auto. assert (Hb := H e). rewrite in_seq in Hb. lia.
    + destruct (Nat.lt_ge_cases s len); [lia|]. replace (len - s) with 0 in Hne by lia. now destruct Hne.
    + apply forallb_forall. intros x Hx. specialize (H _ Hx). lia.
Qed.

(** C07 selection *)

(* the rows of [l] at the listed positions *)
Definition pick (l : list N) (is_ : list nat) : option (list N) := sequence_opt (map (nth_error l) is_).

Lemma pick_seq : forall l s n, s + n <= length l -> pick l (seq s n) = Some (firstn n (skipn s l)).
Proof.
  intros l s n. unfold pick. revert s. induction n; intros s H; [reflexivity|].
  cbn [seq map sequence_opt]. destruct (nth_error l s) as [v|] eqn:E; [|apply nth_error_None in E; lia].
  rewrite IHn by lia.
  assert (Es : skipn s l = v :: skipn (S s) l).
  { clear - E. revert s E. induction l; intros [|s] E; simpl in *; try discriminate; [congruence|]. apply IHl. exact E. }
  rewrite Es. reflexivity.
Qed.

Lemma slice_ids_ok : forall q off len, seq_wf q -> off + len <= length (seq_iter q) ->
  slice_ids q off len = Ok (firstn len (skipn off (seq_iter q))).
Proof.
  intros q off len Hw H. unfold slice_ids. destruct (seq_slice_spec q off len Hw H) as [sl [E1 E2]].
  now rewrite E1, E2.
Qed.

Lemma sequence_opt_none : forall {A} (l : list (option A)), sequence_opt l = None <-> In None l.
Proof.
  induction l as [|[a|] l IH]; simpl; [intuition discriminate| |intuition].
  destruct (sequence_opt l).
  - split; [discriminate|]. intros [H|H]; [discriminate|]. apply IH in H. discriminate.
  - split; auto. intros _. right. now apply IH.
Qed.

(* every selected offset exists: the ids at those offsets, in request order;
   otherwise no ids *)
Theorem select_row_ids_spec : forall q p, seq_wf q ->
  (forall a b, p = PRange a b -> a <= b) ->
  match pick (seq_iter q) (to_offsets_total p (length (seq_iter q))) with
  | Some ids => select_row_ids q p = Ok ids \/ (exists s, p = PFrom s /\ length (seq_iter q) < s)
                \/ (exists a, p = PRange a a /\ length (seq_iter q) < a)
  | None => select_row_ids q p = Err
  end.
Proof.
  intros q p Hw Hr. set (l := seq_iter q).
  destruct p as [a b| |e|s|is_]; cbn [to_offsets_total select_row_ids]; unfold rng;
    rewrite ?(seq_len_iter q Hw); fold l.
  - specialize (Hr a b eq_refl). destruct (length l <? b) eqn:E.
    + destruct (pick l (seq a (b - a))) eqn:Ep; auto.
      destruct (Nat.eq_dec a b) as [->|Hne].
      * right. right. exists b. split; auto. lia.
      * exfalso. unfold pick in Ep. assert (Hc : sequence_opt (map (nth_error l) (seq a (b - a))) <> None) by congruence.
        apply Hc. apply sequence_opt_none. apply in_map_iff. exists (b - 1). split.
        -- apply nth_error_None. lia.
        -- apply in_seq. lia.
    + replace (b <? a) with false by lia. rewrite pick_seq by lia. left. now apply slice_ids_ok; auto; fold l; lia.
  - rewrite Nat.sub_0_r, pick_seq by lia. left. cbn [skipn]. now rewrite firstn_all.
  - rewrite Nat.sub_0_r. destruct (length l <? e) eqn:E.
    + destruct (pick l (seq 0 e)) eqn:Ep; auto. exfalso. unfold pick in Ep.
      assert (Hc : sequence_opt (map (nth_error l) (seq 0 e)) <> None) by congruence.
      apply Hc. apply sequence_opt_none. apply in_map_iff. exists (e - 1). split.
      * apply nth_error_None. lia.
      * apply in_seq. lia.
    + rewrite pick_seq by lia. left. now apply slice_ids_ok; auto; fold l; lia.
  - destruct (length l <? s) eqn:E.
    + replace (length l - s) with 0 by lia. right. left. exists s. split; auto. lia.
    + rewrite pick_seq by lia. left. now apply slice_ids_ok; auto; fold l; lia.
  - unfold pick. rewrite (map_ext _ _ (fun i => seq_get_spec q i Hw)). fold l.
    destruct (sequence_opt (map (nth_error l) is_)); auto.
Qed.

Example select_ex : select_row_ids [Range 10 14; Range 20 24] (PIdx [5; 0]) = Ok [21; 10]%N
  /\ select_row_ids [Range 10 14; Range 20 24] (PRange 2 6) = Ok [12; 13; 20; 21]%N
  /\ select_row_ids [Range 10 14; Range 20 24] (PTo 9) = Err.
Proof. repeat split. Qed.

(* a suffix request past the end aborts instead of returning an error *)
Lemma select_from_past_end : select_row_ids [Range 0 5] (PFrom 6) = Panic.
Proof. reflexivity. Qed.

Example slice_expand_ex : exists p', p_slice (PRange 10 20) 5 3 = Some p' /\ to_offsets p' = Some [15; 16; 17].
Proof. eexists. split; reflexivity. Qed.
