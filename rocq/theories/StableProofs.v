(* Proofs about compaction with stable row ids (C121). *)
From Coq Require Import List Arith NArith Bool Lia ZifyBool ZifyN ZifyNat Permutation Sorted.
From Verif Require Import Lib RowIdsModel RowIdsSpec EncArrProofs BitmapProofs SegProofs SeqProofs RechunkProofs StableModel.
Import ListNotations.
Local Open Scope nat_scope.

(* ---- spec ---- *)
(* the rows of a list that are not deleted *)
Definition live {V} (ps : list nat) (l : list V) : list V := map snd (filter (fun p => negb (memb (fst p) ps)) (combine (seq 0 (length l)) l)).
Definition deleted {V} (f : ofrag V) : list nat := match o_del f with Some ds => ds | None => [] end.
(* the live rows of a fragment with their ids *)
Definition live_rows {V} (f : ofrag V) : list (N * V) := live (deleted f) (combine (seq_iter (o_seq f)) (o_rows f)).
(* a fragment as the manifest has it: an id for each row, deletions sorted and in range *)
Definition frag_ok {V} (f : ofrag V) : Prop :=
  seq_wf (o_seq f) /\ length (seq_iter (o_seq f)) = length (o_rows f) /\ sincn (deleted f) /\ (forall p, In p (deleted f) -> p < length (o_rows f)).
(* what masking leaves has no segment with holes or without ids *)
Definition masks_plain {V} (f : ofrag V) : Prop :=
  match o_del f with Some ds => forall q, seq_mask (o_seq f) ds = Some q -> Forall plain_seg q | None => Forall plain_seg (o_seq f) end.

(* ---- sorting back ---- *)
Definition before {A} (x y : nat * A) : Prop := fst x < fst y.
Lemma insert_perm : forall {A} (x : nat * A) l, Permutation (insert_key x l) (x :: l).
Proof.
  intros A x. induction l as [|y t IH]; cbn [insert_key]; auto. destruct (fst x <=? fst y); auto.
  rewrite IH. apply perm_swap.
Qed.
Lemma sort_perm : forall {A} (l : list (nat * A)), Permutation (sort_key l) l.
Proof. induction l; cbn; auto. rewrite insert_perm. now constructor. Qed.
Lemma insert_sorted : forall {A} (x : nat * A) l, StronglySorted before l -> ~ In (fst x) (map fst l) -> StronglySorted before (insert_key x l).
Proof.
  intros A x. induction l as [|y t IH]; intros H N; cbn [insert_key]; [repeat constructor|].
  inversion H as [|? ? Ht Hy]; subst. cbn [map In] in N. destruct (fst x <=? fst y) eqn:E.
  - apply Nat.leb_le in E. assert (fst x < fst y) by (assert (fst y <> fst x) by tauto; lia).
    constructor; auto. constructor; auto. eapply Forall_impl; [|exact Hy]. unfold before. intros; lia.
  - apply Nat.leb_gt in E. constructor; [apply IH; tauto|]. apply Forall_forall. intros z Hz. apply (Permutation_in _ (insert_perm x t)) in Hz.
    destruct Hz as [<-|Hz]; auto. rewrite Forall_forall in Hy. auto.
Qed.
Lemma sort_sorted : forall {A} (l : list (nat * A)), NoDup (map fst l) -> StronglySorted before (sort_key l).
Proof.
  induction l as [|x t IH]; intros H; [constructor|]. cbn [sort_key fold_right map] in *. inversion H; subst. apply insert_sorted; [apply IH; auto|].
  intros X. apply H2. eapply Permutation_in; [|exact X]. apply Permutation_map, sort_perm.
Qed.
Lemma sorted_unique : forall {A} (l1 l2 : list (nat * A)), StronglySorted before l1 -> StronglySorted before l2 -> Permutation l1 l2 -> l1 = l2.
Proof.
  intros A. induction l1 as [|x t IH]; intros l2 H1 H2 P; [apply Permutation_nil in P; auto|].
  destruct l2 as [|y u]; [apply Permutation_sym, Permutation_nil in P; discriminate|].
  inversion H1 as [|? ? S1 F1]; subst. inversion H2 as [|? ? S2 F2]; subst. rewrite Forall_forall in F1, F2. unfold before in *.
  assert (E : x = y).
  { assert (X : In x (y :: u)) by (eapply Permutation_in; [exact P|left; auto]). assert (Y : In y (x :: t)) by (eapply Permutation_in; [apply Permutation_sym, P|left; auto]).
    destruct X as [->|X]; auto. destruct Y as [->|Y]; auto. specialize (F1 _ Y). specialize (F2 _ X). lia. }
  subst y. f_equal. apply IH; auto. eapply Permutation_cons_inv; eauto.
Qed.
Lemma position_nth : forall {V} (frags : list (ofrag V)) i f, NoDup (map (fun f => id32 (o_id f)) frags) -> nth_error frags i = Some f -> frag_position frags (id32 (o_id f)) = Some i.
Proof.
  intros V. induction frags as [|g t IH]; intros [|i] f N E; cbn [nth_error frag_position] in *; try discriminate.
  - injection E as ->. now rewrite N.eqb_refl.
  - inversion N; subst. destruct (id32 (o_id g) =? id32 (o_id f))%N eqn:X.
    + apply N.eqb_eq in X. exfalso. apply H1. rewrite X. apply (in_map (fun f => id32 (o_id f))). now apply nth_error_In in E.
    + rewrite (IH i f); auto.
Qed.
Lemma sequence_perm : forall {A B} (g : A -> option B) l l' r, Permutation l l' -> sequence_opt (map g l) = Some r ->
  exists r', sequence_opt (map g l') = Some r' /\ Permutation r r'.
Proof.
  intros A B g l l' r P. revert r. induction P; intros r H; cbn [map sequence_opt] in *.
  - eauto.
  - destruct (g x); cbn in *; [|discriminate]. destruct (sequence_opt (map g l)) as [s|] eqn:E; cbn in *; [|discriminate].
    destruct (IHP s eq_refl) as (s' & E' & P'). rewrite E'. cbn. injection H as <-. eexists. split; eauto.
  - destruct (g x), (g y); cbn in *; try discriminate. destruct (sequence_opt (map g l)) as [s|]; cbn in *; [|discriminate].
    injection H as <-. eexists. split; [reflexivity|apply perm_swap].
  - destruct (IHP1 r H) as (r1 & E1 & Q1). destruct (IHP2 r1 E1) as (r2 & E2 & Q2). exists r2. split; auto. eapply perm_trans; eauto.
Qed.
Lemma sort_back_spec : forall {V} (frags : list (ofrag V)) loaded, NoDup (map (fun f => id32 (o_id f)) frags) -> Permutation loaded (loaded_pairs frags) ->
  sort_back frags loaded = Some (loaded_pairs frags).
Proof.
  intros V frags loaded ND P.
  set (g := fun p : N * rowseq => omap (fun k => (k, p)) (frag_position frags (fst p))).
  assert (K : forall pre t, frags = pre ++ t -> sequence_opt (map g (loaded_pairs t)) = Some (combine (seq (length pre) (length t)) (loaded_pairs t))).
  { intros pre t. revert pre. induction t as [|f t IH]; intros pre E; auto. cbn [loaded_pairs map sequence_opt length seq combine]. unfold g at 1. cbn [fst].
    rewrite (position_nth frags (length pre) f ND) by (rewrite E, nth_error_app2, Nat.sub_diag by lia; reflexivity). cbn [omap obind].
    fold (loaded_pairs t). specialize (IH (pre ++ [f])). rewrite app_length in IH. cbn [length] in IH. rewrite Nat.add_1_r in IH. rewrite IH; auto. now rewrite <- app_assoc. }
  specialize (K [] frags eq_refl). cbn [length] in K.
  destruct (sequence_perm g _ _ _ (Permutation_sym P) K) as (r & E & Q). unfold sort_back. fold g. rewrite E. cbn [omap]. f_equal.
  assert (L : length (seq 0 (length frags)) = length (loaded_pairs frags)) by (rewrite seq_length; unfold loaded_pairs; now rewrite map_length).
  assert (FS : map fst (combine (seq 0 (length frags)) (loaded_pairs frags)) = seq 0 (length frags)).
  { revert L. generalize (seq 0 (length frags)) (loaded_pairs frags). clear. induction l as [|a l IH]; intros [|b m] L; try discriminate; auto. cbn. f_equal. apply IH. cbn in L. lia. }
  assert (SN : map snd (combine (seq 0 (length frags)) (loaded_pairs frags)) = loaded_pairs frags).
  { revert L. generalize (seq 0 (length frags)) (loaded_pairs frags). clear. induction l as [|a l IH]; intros [|b m] L; try discriminate; auto. cbn. f_equal. apply IH. cbn in L. lia. }
  transitivity (map snd (combine (seq 0 (length frags)) (loaded_pairs frags))); [|exact SN]. f_equal. apply sorted_unique.
  - apply sort_sorted. eapply Permutation_NoDup; [apply Permutation_map, Q|]. rewrite FS. apply seq_NoDup.
  - assert (G : forall n k (l : list (N * rowseq)), StronglySorted before (combine (seq k n) l)).
    { clear. induction n as [|n IH]; intros k l; cbn; [constructor|]. destruct l as [|x l]; constructor; auto.
      apply Forall_forall. intros [a b] H. apply in_combine_l, in_seq in H. unfold before. cbn. lia. }
    apply G.
  - rewrite sort_perm. now apply Permutation_sym.
Qed.

(* ---- masking ---- *)
Lemma live_app_combine : forall {V W} ps (a : list V) (b : list W), length a = length b -> live ps (combine a b) = combine (live ps a) (live ps b).
Proof.
  intros V W ps a b L. unfold live. rewrite combine_length, <- L, Nat.min_id. generalize 0. revert b L.
  induction a as [|x a IH]; intros [|y b] L k; try discriminate; auto. cbn [combine length seq filter fst]. cbn in L.
  destruct (negb (memb k ps)); cbn [map combine snd]; [f_equal|]; apply IH; lia.
Qed.
Lemma live_none : forall {V} (l : list V), live [] l = l.
Proof. intros V l. unfold live. generalize 0. induction l as [|x l IH]; intros k; auto. cbn [length seq combine filter fst memb existsb negb map snd]. f_equal. apply IH. Qed.
Lemma mask_one : forall {V} (f : ofrag V), frag_ok f -> masks_plain f -> exists q,
  match o_del f with Some ds => seq_mask (o_seq f) ds | None => Some (o_seq f) end = Some q /\ Forall plain_seg q /\ seq_iter q = live (deleted f) (seq_iter (o_seq f)).
Proof.
  intros V f (W & L & S & P) M. unfold masks_plain, deleted in *. destruct (o_del f) as [ds|].
  - destruct (seq_mask_spec (o_seq f) ds W S) as (q & E & Wq & I); [rewrite L; auto|]. exists q. repeat split; auto.
  - exists (o_seq f). repeat split; auto. symmetry. apply live_none.
Qed.
Lemma mask_all_spec : forall {V} (frags : list (ofrag V)), Forall frag_ok frags -> Forall masks_plain frags -> exists qs,
  mask_all (loaded_pairs frags) frags = Some qs /\ Forall (Forall plain_seg) qs /\ map seq_iter qs = map (fun f => live (deleted f) (seq_iter (o_seq f))) frags.
Proof.
  intros V. unfold mask_all. induction frags as [|f t IH]; intros F M; [exists []; repeat split; auto|].
  inversion F; subst. inversion M; subst. destruct (IH H2 H4) as (qs & E & P & I). destruct (mask_one f H1 H3) as (q & Eq & Pq & Iq).
  exists (q :: qs). cbn [loaded_pairs map combine sequence_opt fst snd]. rewrite Eq. cbn [obind]. fold (loaded_pairs t). rewrite E. cbn. repeat split; auto. now rewrite Iq, I.
Qed.
Lemma concat_combine : forall {V W} (a : list (list V)) (b : list (list W)), map (@length V) a = map (@length W) b ->
  concat (map (fun p => combine (fst p) (snd p)) (combine a b)) = combine (concat a) (concat b).
Proof.
  intros V W. induction a as [|x a IH]; intros [|y b] H; try discriminate; auto. cbn [map] in H. injection H as Hx Ha. cbn [combine map concat fst snd].
  rewrite IH by auto. clear -Hx. revert y Hx. induction x as [|v x IHx]; intros [|w y] Hx; try discriminate; auto. cbn. f_equal. apply IHx. cbn in Hx. lia.
Qed.
Lemma concat_length' : forall {A} (l : list (list A)), length (concat l) = sumn (map (@length A) l).
Proof. induction l as [|x l IH]; auto. cbn [concat map sumn]. rewrite app_length. lia. Qed.
(* the ids move with the rows: whatever the order in which the sequences are loaded and
   the sizes of the new fragments *)
Theorem compaction_keeps_ids : forall {V} (frags : list (ofrag V)) loaded chunks,
  NoDup (map (fun f => id32 (o_id f)) frags) -> Permutation loaded (loaded_pairs frags) ->
  Forall frag_ok frags -> Forall masks_plain frags ->
  concat chunks = concat (map (fun f => live (deleted f) (o_rows f)) frags) ->
  exists seqs, rechunk_stable loaded frags (map (@length V) chunks) = Some (RcOk seqs) /\ Forall seq_wf seqs /\
    map (fun q => length (seq_iter q)) seqs = map (@length V) chunks /\
    concat (map (fun p => combine (seq_iter (fst p)) (snd p)) (combine seqs chunks)) = concat (map live_rows frags).
Proof.
  intros V frags loaded chunks ND P F M C. unfold rechunk_stable. rewrite (sort_back_spec frags loaded ND P). cbn [obind].
  destruct (mask_all_spec frags F M) as (qs & E & Pl & I). rewrite E. cbn [omap].
  assert (LL : forall (f : ofrag V), frag_ok f -> length (live (deleted f) (seq_iter (o_seq f))) = length (live (deleted f) (o_rows f))).
  { intros f (_ & L & _). unfold live. rewrite !map_length, L. generalize (seq_iter (o_seq f)) L. intros a La.
    rewrite <- La at 1. revert La. generalize (o_rows f) (deleted f) 0. clear. induction a as [|x a IH]; intros [|y b] ps k La; try discriminate; auto.
    cbn [length seq combine filter fst] in *. destruct (negb (memb k ps)); cbn [length]; [f_equal|]; apply IH; lia. }
  assert (LE : forall fs : list (ofrag V), Forall frag_ok fs -> map (@length _) (map (fun f => live (deleted f) (seq_iter (o_seq f))) fs) = map (@length _) (map (fun f => live (deleted f) (o_rows f)) fs)).
  { induction fs as [|f t IH]; intros Ft; auto. inversion Ft; subst. cbn [map]. rewrite LL by auto. f_equal. now apply IH. }
  assert (LT : length (concat (map seq_iter qs)) = length (concat chunks)).
  { rewrite I, C. rewrite !concat_length'. f_equal. apply LE; auto. }
  pose proof (rechunk_plain qs (map (@length V) chunks) Pl) as R.
  assert (SM : sumn (map (@length V) chunks) = length (concat chunks)) by (rewrite concat_length'; reflexivity).
  rewrite SM, LT, Nat.eqb_refl in R. destruct R as (cs & R1 & R2 & R3 & R4). exists cs. rewrite R1. split; auto. split; auto. split; auto.
  transitivity (concat (map (fun p => combine (fst p) (snd p)) (combine (map seq_iter cs) chunks))).
  { f_equal. clear. revert chunks. induction cs as [|c cs IH]; intros [|d ds]; auto. cbn. f_equal. apply IH. }
  rewrite concat_combine by (rewrite map_map; auto). rewrite R3, I, C. rewrite <- concat_combine by (apply LE; auto). f_equal.
  clear -F. induction frags as [|f t IH]; auto. inversion F; subst. cbn [map combine fst snd]. rewrite IH by auto. f_equal. unfold live_rows. symmetry. apply live_app_combine. apply H1.
Qed.
