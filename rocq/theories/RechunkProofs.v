From Coq Require Import List Arith NArith Bool Lia ZifyBool ZifyN ZifyNat.
From Verif Require Import Lib RowIdsModel RowIdsSpec EncArrProofs BitmapProofs SegProofs SeqProofs.
Import ListNotations.
Local Open Scope nat_scope.

(* segments a re-chunk handles correctly: no holes and at least one id *)
Definition plain_seg (s : segment) : Prop := seg_wf s /\ hole_free s /\ seg_iter s <> [].

Definition rc_state (segs : list segment) (off : nat) : Prop :=
  Forall plain_seg segs /\ match segs with [] => off = 0 | s :: _ => off < length (seg_iter s) end.

Lemma plain_wf : forall l, Forall plain_seg l -> seq_wf l.
Proof. intros l H. eapply Forall_impl; [|exact H]. intros s [A _]. exact A. Qed.

Lemma plain_off0 : forall l, Forall plain_seg l -> rc_state l 0.
Proof.
  intros l H. split; auto. destruct l; auto. inversion H as [|? ? [_ [_ Hn]] _]; subst.
  destruct (seg_iter s); [congruence|simpl; lia].
Qed.

Definition rc_rest (segs : list segment) (off : nat) : list N := skipn off (seq_iter segs).

Lemma rechunk_one_spec : forall fuel segs off rem acc,
  rc_state segs off -> seq_wf acc -> S (length segs) < fuel ->
  if rem <=? length (rc_rest segs off)
  then exists c segs' off', rechunk_one fuel segs off rem acc = RcOk (c, segs', off') /\
         seq_wf c /\ seq_iter c = seq_iter acc ++ firstn rem (rc_rest segs off) /\
         rc_state segs' off' /\ rc_rest segs' off' = skipn rem (rc_rest segs off)
  else rechunk_one fuel segs off rem acc = RcErr.
Proof.
  induction fuel as [|fuel IH]; intros segs off rem acc Hst Hacc Hf; [lia|].
  destruct (Nat.eq_dec rem 0) as [->|Hrem].
  { simpl. exists acc, segs, off. repeat split; auto; try apply Hst.
    now rewrite app_nil_r. }
  destruct Hst as [Hp Ho]. cbn [rechunk_one]. replace (rem =? 0) with false by lia.
  destruct segs as [|s ss].
  - subst off. unfold rc_rest. simpl. replace (rem <=? 0) with false by lia.
    destruct rem; [lia|]. simpl. reflexivity.
  - inversion Hp as [|? ? [Hw [Hh Hn]] Hps]; subst. rewrite (seg_len_iter s Hw).
    assert (ER : rc_rest (s :: ss) off = skipn off (seg_iter s) ++ seq_iter ss).
    { unfold rc_rest. cbn [seq_iter flat_map]. rewrite skipn_app.
      replace (off - length (seg_iter s)) with 0 by lia. reflexivity. }
    assert (EL : length (skipn off (seg_iter s)) = length (seg_iter s) - off) by apply skipn_length.
    set (ris := length (seg_iter s) - off) in *.
    destruct (rem <? ris) eqn:E1.
    + (* part of the segment *)
      destruct (seg_slice_spec s off rem Hw Hh ltac:(lia)) as [p [P1 [P2 P3]]]. rewrite P1.
      replace (rem <=? length (rc_rest (s :: ss) off)) with true by (rewrite ER, app_length; lia).
      assert (Hpw : seq_wf [p]) by (constructor; [apply P2; lia|constructor]).
      destruct (seq_extend_spec acc [p] Hacc Hpw) as [X1 X2].
      assert (Hst' : rc_state (s :: ss) (off + rem)) by (split; auto; lia).
      specialize (IH (s :: ss) (off + rem) 0 (seq_extend acc [p]) Hst' X1).
      destruct fuel as [|fuel']; [simpl in Hf; lia|]. 
      replace (rechunk_one (S fuel') (s :: ss) (off + rem) 0 (seq_extend acc [p])) with
        (@RcOk (rowseq * list segment * nat) (seq_extend acc [p], s :: ss, off + rem)) by reflexivity.
      exists (seq_extend acc [p]), (s :: ss), (off + rem). split; auto. split; auto. split; [|split; auto].
      * rewrite X2. cbn [seq_iter flat_map]. rewrite app_nil_r, P3, ER. f_equal.
        rewrite firstn_app. replace (rem - length (skipn off (seg_iter s))) with 0 by lia.
        simpl. now rewrite app_nil_r.
      * unfold rc_rest. symmetry. apply skipn_skipn'.
    + replace (ris =? 0) with false by lia.
      destruct (seg_slice_spec s off ris Hw Hh ltac:(lia)) as [p [P1 [P2 P3]]]. rewrite P1.
      assert (Hpw : seq_wf [p]) by (constructor; [apply P2; lia|constructor]).
      destruct (seq_extend_spec acc [p] Hacc Hpw) as [X1 X2].
      specialize (IH ss 0 (rem - ris) (seq_extend acc [p]) (plain_off0 _ Hps) X1 ltac:(simpl in Hf; lia)).
      assert (ER0 : rc_rest ss 0 = seq_iter ss) by reflexivity. rewrite ER0 in IH.
      rewrite ER, app_length, EL.
      replace (rem <=? ris + length (seq_iter ss)) with (rem - ris <=? length (seq_iter ss)) by lia.
      destruct (rem - ris <=? length (seq_iter ss)) eqn:E2; auto.
      destruct IH as [c [segs' [off' [A1 [A2 [A3 [A4 A5]]]]]]].
      exists c, segs', off'. split; auto. split; auto. split; [|split; auto].
      * rewrite A3, X2. cbn [seq_iter flat_map]. rewrite app_nil_r, P3, <- app_assoc. f_equal.
        rewrite firstn_app, EL. rewrite (firstn_all2 (n := rem)) by lia.
        rewrite firstn_all2 by lia. reflexivity.
      * rewrite A5. rewrite skipn_app, EL. rewrite (skipn_all2 (n := rem)) by lia. reflexivity.
Qed.

(* cut a list in pieces of the given sizes *)
Fixpoint cut (sizes : list nat) (l : list N) : list (list N) :=
  match sizes with
  | [] => []
  | n :: ns => firstn n l :: cut ns (skipn n l)
  end.

Lemma rc_rest_nil : forall segs off, rc_state segs off -> (rc_rest segs off = [] <-> segs = []).
Proof.
  intros segs off [Hp Ho]. split.
  - intros H. destruct segs as [|s ss]; auto. exfalso.
    unfold rc_rest in H. cbn [seq_iter flat_map] in H. rewrite skipn_app in H. apply app_eq_nil in H.
    destruct H as [H _]. apply (f_equal (@length N)) in H. rewrite skipn_length in H. simpl in H. lia.
  - intros ->. subst off. reflexivity.
Qed.

Lemma rechunk_loop_spec : forall sizes segs off, rc_state segs off ->
  if sumn sizes =? length (rc_rest segs off)
  then exists cs, rechunk_loop segs off sizes = RcOk cs /\ Forall seq_wf cs /\
                  map seq_iter cs = cut sizes (rc_rest segs off)
  else rechunk_loop segs off sizes = RcErr.
Proof.
  induction sizes as [|n ns IH]; intros segs off Hst.
  - cbn [rechunk_loop sumn]. assert (H := rc_rest_nil segs off Hst).
    destruct (0 =? length (rc_rest segs off)) eqn:E.
    + assert (rc_rest segs off = []) by (destruct (rc_rest segs off); auto; simpl in E; lia).
      apply H in H0. subst. exists []. repeat split; auto.
    + destruct segs; auto. destruct H as [_ H]. rewrite (H eq_refl) in E. simpl in E. lia.
  - cbn [rechunk_loop sumn].
    assert (H := rechunk_one_spec (S (S (length segs))) segs off n [] Hst (Forall_nil _) ltac:(lia)).
    destruct (n <=? length (rc_rest segs off)) eqn:E.
    + destruct H as [c [segs' [off' [A1 [A2 [A3 [A4 A5]]]]]]]. rewrite A1.
      specialize (IH segs' off' A4). rewrite A5 in IH. rewrite skipn_length in IH.
      replace (n + sumn ns =? length (rc_rest segs off)) with
        (sumn ns =? length (rc_rest segs off) - n) by lia.
      destruct (sumn ns =? length (rc_rest segs off) - n).
      * destruct IH as [cs [B1 [B2 B3]]]. rewrite B1. exists (c :: cs). split; auto. split; [constructor; auto|].
        cbn [map cut]. rewrite B3, A3. reflexivity.
      * now rewrite IH.
    + rewrite H. replace (n + sumn ns =? length (rc_rest segs off)) with false by lia. reflexivity.
Qed.

Lemma cut_concat : forall sizes l, sumn sizes = length l -> concat (cut sizes l) = l /\ map (@length N) (cut sizes l) = sizes.
Proof.
  induction sizes as [|n ns IH]; intros l H; simpl in *.
  - destruct l; [auto|simpl in H; lia].
  - destruct (IH (skipn n l)) as [A B]; [rewrite skipn_length; lia|]. rewrite A, B, firstn_skipn. split; auto.
    f_equal. rewrite firstn_length. lia.
Qed.

Lemma seq_iter_concat : forall qs, seq_iter (concat qs) = concat (map seq_iter qs).
Proof.
  induction qs; auto. simpl. unfold seq_iter in *. rewrite flat_map_app. now rewrite IHqs.
Qed.

(* C08 for sequences without holes and without empty segments *)
Theorem rechunk_plain : forall qs sizes, Forall (Forall plain_seg) qs ->
  if sumn sizes =? length (concat (map seq_iter qs))
  then exists cs, rechunk_sequences qs sizes = RcOk cs /\ Forall seq_wf cs /\
         concat (map seq_iter cs) = concat (map seq_iter qs) /\
         map (fun c => length (seq_iter c)) cs = sizes
  else rechunk_sequences qs sizes = RcErr.
Proof.
  intros qs sizes H. unfold rechunk_sequences.
  assert (Hst : rc_state (concat qs) 0).
  { apply plain_off0. apply Forall_concat. exact H. }
  assert (G := rechunk_loop_spec sizes (concat qs) 0 Hst).
  unfold rc_rest in G. simpl skipn in G. rewrite seq_iter_concat in G.
  destruct (sumn sizes =? length (concat (map seq_iter qs))) eqn:E; auto.
  destruct G as [cs [A1 [A2 A3]]]. exists cs. split; auto. split; auto.
  apply Nat.eqb_eq in E. destruct (cut_concat _ _ E) as [C1 C2].
  rewrite A3. split; auto. transitivity (map (@length N) (map seq_iter cs)); [now rewrite map_map|]. now rewrite A3.
Qed.
