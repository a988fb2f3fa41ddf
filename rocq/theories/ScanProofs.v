(* C18, C72, C73: a scan answered by scalar indices returns the rows that a plain
   scan returns; the mask of deleted rows; the row ids of a mask. *)
From Coq Require Import List Arith NArith ZArith Bool Lia Permutation.
From Verif Require Import Lib AMap RowIdsModel RowIdsSpec SegProofs SeqProofs SerdeModel TreeMapModel TreeMapProofs TreeMapProofs2 SeqSetProofs MaskProofs
  DeletionModel TakeModel ScalarModel ScalarProofs BitmapIndexProofs IndexExprModel IndexExprProofs ScanModel.
Import ListNotations.
Local Arguments new_from_parts : simpl never.

(* ---- the reading of a dataset: which rows it has ---- *)
Definition deleted (f : sfrag) : list N := match fr_dv (s_frag f) with Some d => dv_items d | None => [] end.
(* the row at position k of fragment f, with its row id *)
Definition row_at (stable : bool) (f : sfrag) (k : nat) (id : N) (r : row) : Prop :=
  nth_error (frag_ids stable f) k = Some id /\ nth_error (fr_rows (s_frag f)) k = Some r.

(* a sequence whose conversion to a set is exact (C64) *)
Definition set_ok (q : rowseq) : Prop := seq_wf q /\ Forall span_ok q /\ no_reskip q.
Definition sfrag_ok (stable : bool) (f : sfrag) : Prop :=
  (s_id f < two32)%N /\ (N.of_nat (s_phys f) <= two32)%N /\
  Forall (fun k => (k < N.of_nat (s_phys f))%N) (deleted f) /\
  (stable = true -> set_ok (s_seq f) /\ length (seq_iter (s_seq f)) = s_phys f /\ sinc (deleted f) /\
     forall q, live_seq f = Some q -> Forall span_ok q /\ no_reskip q).
Definition sds_ok (stable : bool) (ds : list sfrag) : Prop :=
  Forall (sfrag_ok stable) ds /\ NoDup (map s_id ds) /\ (stable = true -> NoDup (flat_map (frag_ids stable) ds)).

(* ---- part_only of converted sequences ---- *)
Lemma put_part : forall k s m, part_only m -> part_only (put k (Partial s) m).
Proof. intros k s m P f. rewrite get_put. destruct (f =? k)%N; [discriminate|apply P]. Qed.
Lemma ins_frag_part : forall f lo hi m, part_only m -> part_only (fst (ins_frag f lo hi m)).
Proof.
  intros f lo hi m P. unfold ins_frag. destruct (get f m) as [[|s]|] eqn:E; cbn [fst]; auto; apply put_part; exact P.
Qed.
Lemma ins_loop_part : forall fuel sh sl eh el c m m' n, part_only m -> ins_loop fuel sh sl eh el c m = Some (m', n) -> part_only m'.
Proof.
  induction fuel as [|fuel IH]; intros sh sl eh el c m m' n P; cbn [ins_loop].
  - destruct (eh <? sh)%N; intros H; [injection H as <- <-; exact P|discriminate].
  - destruct (eh <? sh)%N; [intros H; injection H as <- <-; exact P|].
    pose proof (ins_frag_part sh sl (if (sh =? eh)%N then el else u32_max) m P) as Q.
    destruct (ins_frag sh sl (if (sh =? eh)%N then el else u32_max) m) as [m1 c1]. cbn [fst] in Q.
    destruct (sh =? u32_max)%N; [discriminate|]. apply IH. exact Q.
Qed.
Lemma add_range_part : forall a b m m', part_only m -> add_range a b m = Some m' -> part_only m'.
Proof.
  intros a b m m' P E. unfold add_range in E. destruct (t_insert_range (Included a) (Excluded b) m) as [[m1 c]|] eqn:E1; [|discriminate].
  cbn in E. injection E as <-. unfold t_insert_range in E1. eapply ins_loop_part; [exact P|exact E1].
Qed.
Lemma remove_part : forall v m, part_only m -> part_only (fst (t_remove v m)).
Proof.
  intros v m P f. unfold t_remove. destruct (get (fragment_id v) m) as [[|s]|] eqn:E; cbn [fst]; auto.
  - exfalso. exact (P _ E).
  - destruct (s_diff s [row_offset v]); [rewrite get_del; destruct (f =? fragment_id v)%N; [discriminate|apply P]|apply put_part; exact P].
Qed.
Lemma remove_list_part : forall l m, part_only m -> part_only (fold_left (fun m v => fst (t_remove v m)) l m).
Proof. induction l as [|v l IH]; intros m P; cbn; auto. apply IH. apply remove_part. exact P. Qed.
Lemma remove_unset_part : forall n a i bm m, part_only m -> part_only (remove_unset a n i bm m).
Proof. induction n as [|n IH]; intros a i bm m P; cbn; auto. apply IH. destruct (bm_get bm i); auto. apply remove_part. exact P. Qed.
Lemma add_segment_part : forall s m m', part_only m -> add_segment (Some m) s = Some m' -> part_only m'.
Proof.
  intros s m m' P. unfold add_segment. cbn [obind]. destruct s as [a b|a b h|a b bm|x|x].
  - apply add_range_part. exact P.
  - destruct (add_range a b m) as [m1|] eqn:E; [|discriminate]. cbn. intros H; injection H as <-. apply remove_list_part. eapply add_range_part; eauto.
  - destruct (add_range a b m) as [m1|] eqn:E; [|discriminate]. cbn. intros H; injection H as <-. apply remove_unset_part. eapply add_range_part; eauto.
  - intros H; injection H as <-. apply extend_part. exact P.
  - intros H; injection H as <-. apply extend_part. exact P.
Qed.
Lemma of_seq_part : forall q m, t_of_seq q = Some m -> part_only m.
Proof.
  intros q. unfold t_of_seq. induction q as [|s q IH] using rev_ind; intros m E.
  - injection E as <-. intros f H. discriminate.
  - rewrite fold_left_app in E. cbn [fold_left] in E. destruct (fold_left add_segment q (Some [])) as [m1|] eqn:E1; [|discriminate].
    eapply add_segment_part; [|exact E]. apply IH. reflexivity.
Qed.
Lemma of_seq_spec : forall q, set_ok q -> exists m, t_of_seq q = Some m /\ opt_good (Some m) /\ forall x, (x < two64)%N -> (t_contains x m = true <-> In x (seq_iter q)).
Proof.
  intros q [W [O R]]. destruct (seq_to_set_spec q W O R) as [m [E [Wm Q]]]. exists m. split; [exact E|]. split; [|exact Q].
  split; [exact Wm|eapply of_seq_part; exact E].
Qed.
Lemma seq_ids_lt : forall q, seq_wf q -> Forall (fun x => (x < two64)%N) (seq_iter q).
Proof.
  intros q W. apply Forall_forall. intros x J. unfold seq_iter in J. apply in_flat_map in J as [s [J1 J2]].
  unfold seq_wf in W. rewrite Forall_forall in W. pose proof (seg_iter_valid s (W s J1)) as V. unfold valid_ids in V. rewrite Forall_forall in V.
  specialize (V x J2). cbn beta in V. unfold u64_max, two64 in *. lia.
Qed.
(* union of the sets of several sequences *)
Lemma of_seqs_spec : forall (seqs : list (option rowseq)), (forall o, In o seqs -> exists q, o = Some q /\ set_ok q) ->
  forall m0, opt_good (Some m0) ->
  exists m, fold_left (fun acc o => obind acc (fun m => obind o (fun q => omap (t_or m) (t_of_seq q)))) seqs (Some m0) = Some m /\ opt_good (Some m) /\
    forall x, (x < two64)%N -> (t_contains x m = true <-> t_contains x m0 = true \/ exists q, In (Some q) seqs /\ In x (seq_iter q)).
Proof.
  induction seqs as [|o seqs IH]; intros H m0 G; cbn [fold_left].
  - exists m0. split; [reflexivity|]. split; [exact G|]. intros x _. split; [auto|intros [A|[q [[] _]]]; exact A].
  - destruct (H o (or_introl eq_refl)) as [q [-> Q]]. cbn [obind]. destruct (of_seq_spec q Q) as [m1 [E1 [G1 C1]]]. rewrite E1. cbn [omap].
    destruct (IH (fun o J => H o (or_intror J)) (t_or m0 m1) (or_good _ _ G G1)) as [m [E [Gm C]]]. exists m. split; [exact E|]. split; [exact Gm|].
    intros x X. rewrite (C x X), or_contains; [|exact (proj1 (proj1 G1))|exact (proj2 G1)]. rewrite orb_true_iff, (C1 x X). split.
    + intros [[A|A]|[q' [A B]]]; [left; exact A|right; exists q; split; [left; reflexivity|exact A]|right; exists q'; split; [right; exact A|exact B]].
    + intros [A|[q' [[A|A] B]]]; [left; left; exact A|injection A as ->; left; right; exact B|right; exists q'; auto].
Qed.
Lemma fold_map : forall {A B C} (g : B -> C) (f : A -> C -> A) l a, fold_left f (map g l) a = fold_left (fun a x => f a (g x)) l a.
Proof. intros A B C g f. induction l as [|x l IH]; intros a; cbn; auto. Qed.

(* ---- rows of a fragment ---- *)
Lemma sfrag_mod : forall f, (s_id f < two32)%N -> (s_id f mod two32)%N = s_id f.
Proof. intros f H. apply N.mod_small. exact H. Qed.
Lemma ids_length : forall stable f, sfrag_ok stable f -> length (frag_ids stable f) = s_phys f.
Proof.
  intros stable f [_ [_ [_ S]]]. unfold frag_ids. destruct stable.
  - destruct (S eq_refl) as [_ [L _]]. exact L.
  - unfold frag_addrs. rewrite map_length, nrange_length. reflexivity.
Qed.
Lemma addrs_nth : forall f k id, (s_id f < two32)%N -> (nth_error (frag_addrs f) k = Some id <-> k < s_phys f /\ id = new_from_parts (s_id f) (N.of_nat k)).
Proof.
  intros f k id I. unfold frag_addrs. rewrite sfrag_mod by exact I. destruct (lt_dec k (s_phys f)) as [H|H].
  - rewrite nth_error_map, nrange_nth by exact H. cbn. split; [intros E; injection E as <-; auto|intros [_ ->]; reflexivity].
  - assert (E : nth_error (map (new_from_parts (s_id f)) (nrange 0 (s_phys f))) k = None) by (apply nth_error_None; rewrite map_length, nrange_length; lia).
    rewrite E. split; [discriminate|tauto].
Qed.
Lemma ids_lt : forall stable f id, sfrag_ok stable f -> In id (frag_ids stable f) -> (id < two64)%N.
Proof.
  intros stable f id [I [P [_ S]]] J. unfold frag_ids in J. destruct stable.
  - destruct (S eq_refl) as [[W _] _]. pose proof (seq_ids_lt _ W) as F. rewrite Forall_forall in F. apply F. exact J.
  - apply In_nth_error in J as [k J]. apply addrs_nth in J as [K ->]; [|exact I]. apply address_roundtrip; [exact I|lia].
Qed.
Lemma addrs_frag : forall f id, sfrag_ok false f -> In id (frag_addrs f) -> fragment_id id = s_id f /\ (row_offset id < N.of_nat (s_phys f))%N.
Proof.
  intros f id [I [P _]] J. apply In_nth_error in J as [k J]. apply addrs_nth in J as [K ->]; [|exact I].
  destruct (address_roundtrip (s_id f) (N.of_nat k) I ltac:(lia)) as [_ [A B]]. rewrite A, B. split; [reflexivity|lia].
Qed.
Lemma combine_nth : forall {A B} (l : list A) (m : list B) k p, nth_error (combine l m) k = Some p <-> nth_error l k = Some (fst p) /\ nth_error m k = Some (snd p).
Proof.
  intros A B. induction l as [|x l IH]; intros [|y m] [|k] [a b]; cbn; try (split; [discriminate|intros [H1 H2]; discriminate]).
  - split; [intros H; injection H as -> ->; auto|intros [H1 H2]; congruence].
  - apply IH.
Qed.
Lemma live_In : forall stable f id r, sfrag_ok stable f ->
  (In (id, r) (frag_live stable f) <-> exists k, row_at stable f k id r /\ ~ In (N.of_nat k) (deleted f)).
Proof.
  intros stable f id r O. unfold frag_live. fold (deleted f). rewrite in_map_iff. split.
  - intros [[p n] [E J]]. cbn in E. subst p. apply filter_In in J as [J D]. cbn [snd] in D. apply In_nth_error in J as [k J].
    apply combine_nth in J as [J N1]. cbn [fst snd] in *. apply combine_nth in J as [J1 J2]. cbn [fst snd] in *.
    assert (K : k < s_phys f). { unfold s_phys. apply nth_error_Some. congruence. }
    rewrite nrange_nth in N1 by exact K. injection N1 as <-. exists k. split; [split; assumption|]. rewrite negb_true_iff, memN_false in D. exact D.
  - intros [k [[J1 J2] D]]. assert (K : k < s_phys f). { unfold s_phys. apply nth_error_Some. congruence. }
    exists ((id, r), N.of_nat k). split; [reflexivity|]. apply filter_In. split; [|cbn [snd]; rewrite negb_true_iff, memN_false; exact D].
    apply nth_error_In with (n := k). apply combine_nth. cbn [fst snd]. split; [apply combine_nth; auto|]. rewrite nrange_nth by exact K. reflexivity.
Qed.
Lemma map_fst_combine : forall {A B} (l : list A) (m : list B), length l = length m -> map fst (combine l m) = l.
Proof. intros A B. induction l as [|x l IH]; intros [|y m] H; cbn in *; try discriminate; auto. f_equal. apply IH. lia. Qed.
Lemma NoDup_map_filter : forall {A B} (g : A -> B) f l, NoDup (map g l) -> NoDup (map g (filter f l)).
Proof.
  intros A B g f. induction l as [|x l IH]; intros H; cbn; auto. cbn in H. inversion H as [|? ? N1 N2]; subst.
  destruct (f x); [|auto]. cbn. constructor; [|auto]. intros J. apply N1. apply in_map_iff in J as [y [E J]]. apply filter_In in J as [J _].
  apply in_map_iff. exists y. auto.
Qed.
Lemma live_ids_nodup : forall stable f, sfrag_ok stable f -> NoDup (frag_ids stable f) -> NoDup (map fst (frag_live stable f)).
Proof.
  intros stable f O D. unfold frag_live. rewrite map_map. apply NoDup_map_filter.
  assert (L := ids_length _ _ O). assert (L2 : length (combine (frag_ids stable f) (fr_rows (s_frag f))) = length (nrange 0 (s_phys f))).
  { rewrite combine_length, nrange_length, L. unfold s_phys. lia. }
  rewrite <- (map_map fst fst). rewrite map_fst_combine by exact L2. rewrite map_fst_combine; [exact D|]. exact L.
Qed.


Lemma NoDup_app_intro : forall {A} (l m : list A), NoDup l -> NoDup m -> (forall x, In x l -> ~ In x m) -> NoDup (l ++ m).
Proof.
  intros A. induction l as [|x l IH]; intros m D E H; cbn; [exact E|]. inversion D; subst. constructor.
  - rewrite in_app_iff. intros [J|J]; [contradiction|]. apply (H x (or_introl eq_refl) J).
  - apply IH; auto. intros y Y. apply H. right. exact Y.
Qed.
Lemma NoDup_app_inv : forall {A} (l m : list A), NoDup (l ++ m) -> NoDup l /\ NoDup m /\ (forall x, In x l -> ~ In x m).
Proof.
  intros A. induction l as [|x l IH]; intros m D; cbn in *.
  - split; [constructor|]. split; [exact D|]. intros x [].
  - inversion D as [|? ? N1 N2]; subst. destruct (IH m N2) as [A1 [A2 A3]]. rewrite in_app_iff in N1. split; [constructor; auto|]. split; [exact A2|].
    intros y [<-|Y]; [auto|apply A3; exact Y].
Qed.
Lemma flat_map_owner : forall {A B} (g : A -> list B) l f f' x, NoDup (flat_map g l) -> In f l -> In f' l -> In x (g f) -> In x (g f') -> f = f'.
Proof.
  intros A B g. induction l as [|a l IH]; intros f f' x D J J' X X'; [destruct J|]. cbn in D. apply NoDup_app_inv in D as [D1 [D2 D3]].
  destruct J as [->|J], J' as [->|J']; auto.
  - exfalso. apply (D3 x X). apply in_flat_map. exists f'. auto.
  - exfalso. apply (D3 x X'). apply in_flat_map. exists f. auto.
  - eapply IH; eauto.
Qed.
Lemma flat_map_one : forall {A B} (g : A -> list B) l f, NoDup (flat_map g l) -> In f l -> NoDup (g f).
Proof.
  intros A B g. induction l as [|a l IH]; intros f D J; [destruct J|]. cbn in D. apply NoDup_app_inv in D as [D1 [D2 D3]].
  destruct J as [->|J]; auto.
Qed.
Lemma flat_map_nodup : forall {A B} (g : A -> list B) l, NoDup l -> (forall f, In f l -> NoDup (g f)) ->
  (forall f f' x, In f l -> In f' l -> In x (g f) -> In x (g f') -> f = f') -> NoDup (flat_map g l).
Proof.
  intros A B g. induction l as [|a l IH]; intros D O U; cbn; [constructor|]. inversion D; subst. apply NoDup_app_intro.
  - apply O. left. reflexivity.
  - apply IH; auto. intros f J. apply O. right; exact J. intros f f' x J J'. apply U; right; assumption.
  - intros x X Y. apply in_flat_map in Y as [f [J Y]]. rewrite <- (U a f x) in J; [contradiction|left; reflexivity|right; exact J|exact X|exact Y].
Qed.
Lemma addrs_nodup : forall f, sfrag_ok false f -> NoDup (frag_addrs f).
Proof.
  intros f [If [Pf _]]. apply NoDup_nth_error. intros i j Hi E. destruct (nth_error (frag_addrs f) i) as [x|] eqn:Ei; [|apply nth_error_None in Ei; lia].
  symmetry in E. apply addrs_nth in Ei as [Ki ->]; [|exact If]. apply addrs_nth in E as [Kj Ej]; [|exact If].
  destruct (address_roundtrip (s_id f) (N.of_nat i) If ltac:(lia)) as [_ [_ A]]. destruct (address_roundtrip (s_id f) (N.of_nat j) If ltac:(lia)) as [_ [_ B]].
  rewrite Ej in A. lia.
Qed.
Lemma same_id : forall (l : list sfrag) f f', NoDup (map s_id l) -> In f l -> In f' l -> s_id f = s_id f' -> f = f'.
Proof.
  induction l as [|a l IH]; intros f f' D J J' E; [destruct J|]. cbn in D. inversion D as [|? ? N1 N2]; subst.
  destruct J as [->|J], J' as [->|J']; auto.
  - exfalso. apply N1. rewrite E. apply in_map. exact J'.
  - exfalso. apply N1. rewrite <- E. apply in_map. exact J.
Qed.
Lemma ds_ids_nodup : forall stable ds, sds_ok stable ds -> NoDup (flat_map (frag_ids stable) ds).
Proof.
  intros [|] ds [F [I S]]; [exact (S eq_refl)|]. clear S. rewrite Forall_forall in F. apply flat_map_nodup.
  - eapply NoDup_map_inv. exact I.
  - intros f J. apply addrs_nodup. auto.
  - intros f f' x J J' X X'. apply (same_id ds); auto. destruct (addrs_frag f x (F f J) X) as [A _]. destruct (addrs_frag f' x (F f' J') X') as [B _]. congruence.
Qed.
Lemma sub_ds_ok : forall stable ds fs, sds_ok stable ds -> incl fs ds -> NoDup (map s_id fs) -> sds_ok stable fs.
Proof.
  intros stable ds fs [F [N1 S]] I D. split; [rewrite Forall_forall in *; auto|]. split; [exact D|]. intros E. specialize (S E). apply flat_map_nodup.
  - eapply NoDup_map_inv. exact D.
  - intros f J. eapply flat_map_one; [exact S|auto].
  - intros f f' x J J'. eapply flat_map_owner; [exact S|auto|auto].
Qed.
Lemma frag_live_id : forall stable f id r, sfrag_ok stable f -> In (id, r) (frag_live stable f) -> In id (frag_ids stable f).
Proof. intros stable f id r O J. apply live_In in J as [k [[J _] _]]; [|exact O]. eapply nth_error_In. exact J. Qed.
Lemma live_fst_nodup : forall stable fs, sds_ok stable fs -> NoDup (map fst (live stable fs)).
Proof.
  intros stable fs O. unfold live. pose proof (ds_ids_nodup stable fs O) as D. destruct O as [F [I _]]. rewrite Forall_forall in F.
  rewrite flat_map_concat_map, concat_map, map_map, <- flat_map_concat_map. apply flat_map_nodup.
  - eapply NoDup_map_inv. exact I.
  - intros f J. apply live_ids_nodup; [auto|eapply flat_map_one; eauto].
  - intros f f' x J J' X X'. apply in_map_iff in X as [[i r] [E X]]. apply in_map_iff in X' as [[i' r'] [E' X']]. cbn in E, E'. subst i i'.
    eapply flat_map_owner; [exact D|exact J|exact J'|eapply frag_live_id; eauto|eapply frag_live_id; eauto].
Qed.
Lemma live_in_ds : forall stable fs id r, In (id, r) (live stable fs) <-> exists f, In f fs /\ In (id, r) (frag_live stable f).
Proof. intros. unfold live. apply in_flat_map. Qed.

(* ---- prefilter.rs: the mask of deleted rows ---- *)
Lemma positions_to_nat : forall l, sinc l -> sincn (map N.to_nat l).
Proof.
  induction l as [|x l IH]; intros S; cbn; auto. destruct S as [A B]. split; [|auto]. intros y J. apply in_map_iff in J as [z [<- J]]. specialize (A z J). lia.
Qed.
Lemma live_seq_spec : forall f, sfrag_ok true f -> exists q, live_seq f = Some q /\ set_ok q /\
  forall id, In id (seq_iter q) <-> exists k, nth_error (seq_iter (s_seq f)) k = Some id /\ ~ In (N.of_nat k) (deleted f).
Proof.
  intros f [I [P [D S]]]. destruct (S eq_refl) as [[W [SP NR]] [L [SD X]]]. unfold deleted in *. destruct (fr_dv (s_frag f)) as [d|] eqn:E.
  - destruct (seq_mask_spec (s_seq f) (map N.to_nat (dv_items d)) W (positions_to_nat _ SD)) as [q [E1 [W1 I1]]].
    { intros p J. apply in_map_iff in J as [z [<- J]]. rewrite Forall_forall in D. specialize (D z J). cbn beta in D. rewrite L. lia. }
    assert (E2 : live_seq f = Some q) by (unfold live_seq; rewrite E; exact E1). destruct (X q E2) as [SQ NQ].
    exists q. split; [exact E2|]. split; [split; [|split]; assumption|]. intros id. rewrite I1.
    change (without_positions (map N.to_nat (dv_items d)) (seq_iter (s_seq f))) with (wpos 0 (map N.to_nat (dv_items d)) (seq_iter (s_seq f))).
    rewrite wpos_In. assert (M : forall k, In k (map N.to_nat (dv_items d)) <-> In (N.of_nat k) (dv_items d)).
    { intros k. rewrite in_map_iff. split; [intros [z [<- J]]; rewrite N2Nat.id; exact J|intros J; exists (N.of_nat k); split; [apply Nat2N.id|exact J]]. }
    split; intros [k [A B]]; exists k; split; auto; cbn in *; rewrite M in *; auto.
  - exists (s_seq f). split; [unfold live_seq; rewrite E; reflexivity|]. split; [split; [|split]; assumption|]. intros id. split.
    + intros J. apply In_nth_error in J as [k J]. exists k. split; [exact J|intros []].
    + intros [k [J _]]. eapply nth_error_In. exact J.
Qed.
Lemma row_exists : forall stable f k id, sfrag_ok stable f -> nth_error (frag_ids stable f) k = Some id -> exists r, row_at stable f k id r.
Proof.
  intros stable f k id O E. assert (K : k < s_phys f). { rewrite <- (ids_length stable f O). apply nth_error_Some. congruence. }
  destruct (nth_error (fr_rows (s_frag f)) k) as [r|] eqn:R; [exists r; split; assumption|]. apply nth_error_None in R. unfold s_phys in K. lia.
Qed.
Lemma find_id : forall stable ds f, sds_ok stable ds -> In f ds -> find (fun g => (s_id g mod two32 =? s_id f)%N) ds = Some f.
Proof.
  intros stable ds f O J. destruct (find (fun g => (s_id g mod two32 =? s_id f)%N) ds) as [g|] eqn:E.
  - apply find_some in E as [Jg E]. apply N.eqb_eq in E. destruct O as [F [D _]]. rewrite Forall_forall in F.
    rewrite sfrag_mod in E by exact (proj1 (F g Jg)). f_equal. apply (same_id ds); auto.
  - exfalso. apply (find_none _ _ E) in J as X. cbn in X. destruct O as [F _]. rewrite Forall_forall in F. rewrite sfrag_mod in X by exact (proj1 (F f J)). rewrite N.eqb_refl in X. discriminate.
Qed.
(* the fragment with a given id *)
Lemma by_id_In : forall stable ds (P : sfrag -> bool) k, sds_ok stable ds -> (existsb (fun f => (s_id f mod two32 =? k)%N && P f) ds = true <-> exists f, In f ds /\ s_id f = k /\ P f = true).
Proof.
  intros stable ds P k [F _]. rewrite existsb_exists. rewrite Forall_forall in F. split; intros [f [J A]]; exists f.
  - apply andb_true_iff in A as [A B]. apply N.eqb_eq in A. rewrite sfrag_mod in A by exact (proj1 (F f J)). auto.
  - split; [exact J|]. rewrite sfrag_mod by exact (proj1 (F f J)). destruct A as [A B]. rewrite A, B, N.eqb_refl. reflexivity.
Qed.
Lemma fold_bitmap_get : forall (g : N -> list N) dvs m k, (forall p, In p dvs -> snd p = g (fst p)) ->
  get k (fold_left (fun m p => t_insert_bitmap (fst p) (snd p) m) dvs m) = if memN k (map fst dvs) then Some (Partial (g k)) else get k m.
Proof.
  intros g. induction dvs as [|[a s] dvs IH]; intros m k H; cbn [fold_left map]; [reflexivity|]. rewrite IH by (intros p J; apply H; right; exact J).
  cbn [fst snd]. unfold t_insert_bitmap. rewrite get_put. pose proof (H (a, s) (or_introl eq_refl)) as E. cbn in E. subst s. cbn [memN existsb]. fold (memN k (map fst dvs)).
  destruct (k =? a)%N eqn:Ek; [apply N.eqb_eq in Ek; subst a; destruct (memN k (map fst dvs)); reflexivity|reflexivity].
Qed.
Lemma fold_bitmap_wf : forall dvs m, t_wf m -> Forall (fun p : N * list N => (fst p < two32)%N /\ sel_wf (Partial (snd p))) dvs -> t_wf (fold_left (fun m p => t_insert_bitmap (fst p) (snd p) m) dvs m).
Proof. induction dvs as [|p dvs IH]; intros m W F; cbn; auto. inversion F as [|? ? [A B] F']; subst. apply IH; [apply put_t_wf; assumption|exact F']. Qed.
Lemma fold_missing_get : forall missing m k, get k (fold_left (fun m k => t_insert_fragment k m) missing m) = if memN k missing then Some Full else get k m.
Proof.
  induction missing as [|a l IH]; intros m k; cbn [fold_left]; [reflexivity|]. rewrite IH. unfold t_insert_fragment. rewrite get_put. cbn [memN existsb]. fold (memN k l).
  destruct (k =? a)%N; cbn; destruct (memN k l); reflexivity.
Qed.
Lemma fold_missing_wf : forall missing m, t_wf m -> Forall (fun k => (k < two32)%N) missing -> t_wf (fold_left (fun m k => t_insert_fragment k m) missing m).
Proof. induction missing as [|p l IH]; intros m W F; cbn; auto. inversion F; subst. apply IH; [apply put_t_wf; [assumption|assumption|exact Logic.I]|assumption]. Qed.

(* the deletion mask in address mode *)
Definition masks_addresses (ds : list sfrag) (frags : list N) (pm : option mask) : Prop :=
  match pm with
  | None => forall k, In k frags -> exists f, In f ds /\ s_id f = k /\ fr_dv (s_frag f) = None
  | Some p => exists b, p = from_block b /\ t_wf b /\
      (forall id, t_contains id b = true <-> In (fragment_id id) frags /\
         ((forall f, In f ds -> s_id f <> fragment_id id) \/ exists f, In f ds /\ s_id f = fragment_id id /\ In (row_offset id) (deleted f))) /\
      ((forall k, In k frags -> exists f, In f ds /\ s_id f = k) -> part_only b)
  end.
(* the deletion mask with stable row ids *)
Definition masks_row_ids (ds : list sfrag) (frags : list N) (pm : option mask) : Prop :=
  match pm with
  | None => forall k, In k frags -> exists f, In f ds /\ s_id f = k /\ fr_dv (s_frag f) = None
  | Some p => exists a, p = from_allowed a /\ t_wf a /\ part_only a /\
      forall id, (id < two64)%N -> (t_contains id a = true <-> exists r, In (id, r) (live true ds))
  end.

Lemma cdm_none : forall stable ds frags, sds_ok stable ds ->
  filter (fun k => negb (existsb (fun f => (s_id f mod two32 =? k)%N) ds)) frags = [] ->
  filter (fun k => existsb (fun f => (s_id f mod two32 =? k)%N && match fr_dv (s_frag f) with Some _ => true | None => false end) ds) frags = [] ->
  forall k, In k frags -> exists f, In f ds /\ s_id f = k /\ fr_dv (s_frag f) = None.
Proof.
  intros stable ds frags O M D k J.
  assert (P : existsb (fun f => (s_id f mod two32 =? k)%N) ds = true).
  { destruct (existsb (fun f => (s_id f mod two32 =? k)%N) ds) eqn:E; [reflexivity|]. exfalso.
    assert (X : In k (filter (fun k => negb (existsb (fun f => (s_id f mod two32 =? k)%N) ds)) frags)) by (apply filter_In; rewrite E; auto). rewrite M in X. destruct X. }
  apply existsb_exists in P as [f [Jf E]]. apply N.eqb_eq in E. exists f. split; [exact Jf|].
  assert (Ef : s_id f = k). { destruct O as [F _]. rewrite Forall_forall in F. rewrite sfrag_mod in E by exact (proj1 (F f Jf)). exact E. }
  split; [exact Ef|]. destruct (fr_dv (s_frag f)) as [d|] eqn:Ed; [|reflexivity]. exfalso.
  assert (X : In k (filter (fun k => existsb (fun f => (s_id f mod two32 =? k)%N && match fr_dv (s_frag f) with Some _ => true | None => false end) ds) frags)).
  { apply filter_In. split; [exact J|]. apply existsb_exists. exists f. split; [exact Jf|]. rewrite E, Ed, N.eqb_refl. reflexivity. }
  rewrite D in X. destruct X.
Qed.

Theorem deletion_mask_addresses : forall ds frags, sds_ok false ds -> Forall (fun k => (k < two32)%N) frags ->
  exists pm, create_deletion_mask false ds frags = Some pm /\ masks_addresses ds frags pm.
Proof.
  intros ds frags O B. unfold create_deletion_mask.
  set (missing := filter (fun k => negb (existsb (fun f => (s_id f mod two32 =? k)%N) ds)) frags).
  set (with_del := filter (fun k => existsb (fun f => (s_id f mod two32 =? k)%N && match fr_dv (s_frag f) with Some _ => true | None => false end) ds) frags).
  assert (HM : forall k, In k missing <-> In k frags /\ forall f, In f ds -> s_id f <> k).
  { intros k. unfold missing. rewrite filter_In, negb_true_iff, <- not_true_iff_false, existsb_exists. split; intros [J A]; split; auto.
    - intros f Jf E. apply A. exists f. split; [exact Jf|]. destruct O as [F _]. rewrite Forall_forall in F. rewrite sfrag_mod by exact (proj1 (F f Jf)). apply N.eqb_eq. exact E.
    - intros [f [Jf E]]. apply N.eqb_eq in E. destruct O as [F _]. rewrite Forall_forall in F. rewrite sfrag_mod in E by exact (proj1 (F f Jf)). exact (A f Jf E). }
  assert (HD : forall k, In k with_del <-> In k frags /\ exists f d, In f ds /\ s_id f = k /\ fr_dv (s_frag f) = Some d).
  { intros k. unfold with_del. rewrite filter_In, (by_id_In false ds (fun f => match fr_dv (s_frag f) with Some _ => true | None => false end) k O). split; intros [J A]; split; auto.
    - destruct A as [f [Jf [E D]]]. destruct (fr_dv (s_frag f)) as [d|] eqn:Ed; [|discriminate]. exists f, d. auto.
    - destruct A as [f [d [Jf [E D]]]]. exists f. rewrite D. auto. }
  assert (CASE : (missing = [] /\ with_del = []) \/ match missing, with_del with [], [] => Some None | _, _ => omap Some (deletion_mask ds missing with_del) end = omap Some (deletion_mask ds missing with_del)).
  { destruct missing; [destruct with_del; auto|auto]. }
  destruct CASE as [[Em Ed]|CASE]; [|rewrite CASE; clear CASE].
  { rewrite Em, Ed. exists None. split; [reflexivity|]. cbn. eapply cdm_none; eauto. }
  set (g := fun k => match find (fun f => (s_id f mod two32 =? k)%N) ds with Some f => s_of_list (deleted f) | None => [] end).
  assert (SQ : sequence_opt (map (fun k => obind (find (fun f => (s_id f mod two32 =? k)%N) ds) (fun f => omap (fun d => (k, s_of_list (dv_items d))) (fr_dv (s_frag f)))) with_del)
               = Some (map (fun k => (k, g k)) with_del)).
  { apply sequence_opt_Some. intros k J. apply HD in J as [_ [f [d [Jf [<- Ed]]]]]. unfold g, deleted. rewrite (find_id false ds f O Jf). cbn [obind]. rewrite Ed. reflexivity. }
  unfold deletion_mask. rewrite SQ. cbn [omap]. eexists. split; [reflexivity|]. cbn [masks_addresses]. eexists. split; [reflexivity|].
  assert (W0 : t_wf []) by (split; [exact Logic.I|constructor]).
  assert (WB : t_wf (fold_left (fun m p => t_insert_bitmap (fst p) (snd p) m) (map (fun k => (k, g k)) with_del) [])).
  { apply fold_bitmap_wf; [exact W0|]. apply Forall_forall. intros p J. apply in_map_iff in J as [k [<- J]]. apply HD in J as [J [f [d [Jf [E Ed]]]]].
    rewrite Forall_forall in B. split; [apply B; exact J|]. cbn [snd sel_wf]. unfold g. rewrite <- E, (find_id false ds f O Jf). split; [apply s_of_list_sinc|].
    apply Forall_forall. intros x X. apply (proj1 (s_of_list_In _ _)) in X. destruct O as [F _]. rewrite Forall_forall in F. destruct (F f Jf) as [_ [P [D _]]]. rewrite Forall_forall in D. specialize (D x X). cbn beta in D. lia. }
  assert (G : forall k, get k (fold_left (fun m k => t_insert_fragment k m) missing (fold_left (fun m p => t_insert_bitmap (fst p) (snd p) m) (map (fun k => (k, g k)) with_del) []))
              = if memN k missing then Some Full else if memN k with_del then Some (Partial (g k)) else None).
  { intros k. rewrite fold_missing_get, (fold_bitmap_get g). 2:{ intros p J. apply in_map_iff in J as [k' [<- _]]. reflexivity. }
    rewrite map_map. cbn [fst]. rewrite map_id. reflexivity. }
  split; [|split].
  - apply fold_missing_wf; [exact WB|]. apply Forall_forall. intros k J. apply HM in J as [J _]. rewrite Forall_forall in B. apply B. exact J.
  - intros id. rewrite contains_get, G. destruct (memN (fragment_id id) missing) eqn:Em.
    + apply memN_In, HM in Em as [A N1]. cbn. split; [intros _; split; [exact A|left; exact N1]|reflexivity].
    + apply memN_false in Em. rewrite HM in Em. destruct (memN (fragment_id id) with_del) eqn:Ed.
      * apply memN_In, HD in Ed as [A [f [d [Jf [E Ed]]]]]. cbn [sel_has]. rewrite memN_In. unfold g. rewrite <- E, (find_id false ds f O Jf), s_of_list_In. split.
        -- intros X. split; [rewrite E; exact A|]. right. exists f. auto.
        -- intros [_ [N1|[f' [Jf' [E' X]]]]]; [exfalso; apply (N1 f Jf); reflexivity|]. destruct O as [_ [ND _]]. rewrite <- (same_id ds f' f ND Jf' Jf E'). exact X.
      * cbn. apply memN_false in Ed. rewrite HD in Ed. split; [discriminate|]. intros [A [N1|[f [Jf [E X]]]]]; exfalso; [apply Em; auto|]. apply Ed. split; [exact A|].
        unfold deleted in X. destruct (fr_dv (s_frag f)) as [d|] eqn:Ef; [|destruct X]. exists f, d. auto.
  - intros PR k. rewrite G. destruct (memN k missing) eqn:Em; [|destruct (memN k with_del); discriminate]. apply memN_In, HM in Em as [A N1]. destruct (PR k A) as [f [Jf E]]. exfalso. exact (N1 f Jf E).
Qed.

Lemma live_true_id : forall ds id, sds_ok true ds -> ((exists r, In (id, r) (live true ds)) <-> exists f k, In f ds /\ nth_error (seq_iter (s_seq f)) k = Some id /\ ~ In (N.of_nat k) (deleted f)).
Proof.
  intros ds id [F _]. rewrite Forall_forall in F. split.
  - intros [r J]. apply live_in_ds in J as [f [Jf J]]. apply live_In in J as [k [[A _] D]]; [|auto]. exists f, k. auto.
  - intros [f [k [Jf [A D]]]]. destruct (row_exists true f k id (F f Jf) A) as [r R]. exists r. apply live_in_ds. exists f. split; [exact Jf|]. apply live_In; [auto|]. exists k. auto.
Qed.
Theorem deletion_mask_row_ids : forall ds frags, sds_ok true ds ->
  exists pm, create_deletion_mask true ds frags = Some pm /\ masks_row_ids ds frags pm.
Proof.
  intros ds frags O. unfold create_deletion_mask.
  set (missing := filter (fun k => negb (existsb (fun f => (s_id f mod two32 =? k)%N) ds)) frags).
  set (with_del := filter (fun k => existsb (fun f => (s_id f mod two32 =? k)%N && match fr_dv (s_frag f) with Some _ => true | None => false end) ds) frags).
  assert (CASE : (missing = [] /\ with_del = []) \/ match missing, with_del with [], [] => Some None | _, _ => omap Some (deletion_mask_row_id ds) end = omap Some (deletion_mask_row_id ds)).
  { destruct missing; [destruct with_del; auto|auto]. }
  destruct CASE as [[Em Ed]|CASE]; [|rewrite CASE; clear CASE].
  { rewrite Em, Ed. exists None. split; [reflexivity|]. cbn. eapply cdm_none; eauto. }
  unfold deletion_mask_row_id. destruct O as [F R]. rewrite Forall_forall in F.
  destruct (of_seqs_spec (map live_seq ds)) with (m0 := @nil (N * sel)) as [m [E [G C]]].
  { intros o J. apply in_map_iff in J as [f [<- J]]. destruct (live_seq_spec f (F f J)) as [q [E [S _]]]. exists q. auto. }
  { split; [split; [exact Logic.I|constructor]|intros f H; discriminate]. }
  rewrite fold_map in E. match goal with |- context[fold_left ?f ds ?a] => replace (fold_left f ds a) with (Some m) by (symmetry; exact E) end. cbn [omap]. eexists. split; [reflexivity|]. cbn [masks_row_ids]. exists m. split; [reflexivity|]. split; [exact (proj1 G)|]. split; [exact (proj2 G)|].
  intros id X. rewrite (C id X), live_true_id by (split; [rewrite Forall_forall; exact F|exact R]). split.
  - intros [H|[q [J I]]]; [discriminate|]. apply in_map_iff in J as [f [E1 J]]. destruct (live_seq_spec f (F f J)) as [q' [E2 [_ L]]]. rewrite E1 in E2. injection E2 as <-.
    apply L in I as [k K]. exists f, k. tauto.
  - intros [f [k [J K]]]. right. destruct (live_seq_spec f (F f J)) as [q [E2 [_ L]]]. exists q. split; [apply in_map_iff; exists f; auto|]. apply L. exists k. exact K.
Qed.

(* ---- scalar_index.rs: the row ids of a mask ---- *)
Lemma retain_good : forall fs m, opt_good (Some m) -> opt_good (Some (t_retain fs m)).
Proof.
  intros fs m [W P]. split; [apply filter_t_wf; exact W|]. intros f E. apply get_In in E. apply filter_In in E as [E _]. apply (P f). apply In_get; [exact (proj1 W)|exact E].
Qed.
Lemma retain_fragments_spec : forall stable a frags, sds_ok stable frags -> opt_good (Some a) ->
  exists a', retain_fragments stable a frags = Some a' /\ opt_good (Some a') /\
    forall x, (x < two64)%N -> (t_contains x a' = true <-> t_contains x a = true /\
      if stable then In x (flat_map (frag_ids true) frags) else In (fragment_id x) (map s_id frags)).
Proof.
  intros [|] a frags [F R] G; unfold retain_fragments; rewrite Forall_forall in F.
  - destruct (of_seqs_spec (map (fun f => Some (s_seq f)) frags)) with (m0 := @nil (N * sel)) as [m [E [Gm C]]].
    { intros o J. apply in_map_iff in J as [f [<- J]]. exists (s_seq f). split; [reflexivity|]. destruct (F f J) as [_ [_ [_ S]]]. apply S. reflexivity. }
    { split; [split; [exact Logic.I|constructor]|intros f H; discriminate]. }
    rewrite fold_map in E. match goal with |- context[fold_left ?f frags ?a] => replace (fold_left f frags a) with (Some m) by (symmetry; exact E) end.
    cbn [omap]. eexists. split; [reflexivity|]. split; [apply and_good; assumption|]. intros x X. rewrite and_spec by exact (proj1 (proj1 G)). rewrite andb_true_iff, (C x X).
    rewrite in_flat_map. cbn [frag_ids]. split; intros [A B]; split; auto.
    + destruct B as [B|[q [B J]]]; [discriminate|]. apply in_map_iff in B as [f [E1 B]]. injection E1 as <-. exists f. auto.
    + destruct B as [f [B J]]. right. exists (s_seq f). split; [apply in_map_iff; exists f; auto|exact J].
  - eexists. split; [reflexivity|]. split; [apply retain_good; exact G|]. intros x X. rewrite retain_spec, andb_true_iff, memN_In.
    rewrite (map_ext_in (fun f => (s_id f mod two32)%N) s_id); [tauto|]. intros f J. apply sfrag_mod. exact (proj1 (F f J)).
Qed.
Lemma good_ids : forall a, opt_good (Some a) -> exists l, t_row_ids a = Some l /\ NoDup l /\ Forall (fun i => (i < two64)%N) l /\ forall v, (v < two64)%N -> (In v l <-> t_contains v a = true).
Proof.
  intros a [W P]. destruct (part_row_ids a W P) as [l E]. exists l. split; [exact E|]. destruct (row_ids_spec a l W E) as [S [_ Q]].
  split; [apply sinc_NoDup; exact S|]. split; [eapply row_ids_lt; eauto|exact Q].
Qed.
Lemma part_len : forall a, opt_good (Some a) -> exists l, t_row_ids a = Some l /\ t_len a = Some (N.of_nat (length l)).
Proof. intros a [W P]. destruct (part_row_ids a W P) as [l E]. exists l. split; [exact E|]. destruct (row_ids_spec a l W E) as [_ [L _]]. exact L. Qed.

(* what has to hold of the ids outside the rows under consideration: without stable
   row ids an allowed address of a listed fragment is the address of one of its rows;
   with stable row ids a block list names only ids of the listed fragments *)
Definition ids_within (stable : bool) (m : mask) (frags : list sfrag) : Prop :=
  if stable
  then allow m = None -> forall b, block m = Some b -> forall x, (x < two64)%N -> t_contains x b = true -> In x (flat_map (frag_ids true) frags)
  else allow m <> None -> forall x, (x < two64)%N -> selected m x = true -> In (fragment_id x) (map s_id frags) -> In x (flat_map (frag_ids false) frags).

Theorem row_ids_for_mask_spec : forall stable m frags, sds_ok stable frags -> mask_good m -> ids_within stable m frags ->
  exists l, row_ids_for_mask stable m frags = Some l /\ NoDup l /\
    forall id, In id l <-> In id (flat_map (frag_ids stable) frags) /\ selected m id = true.
Proof.
  intros stable m frags O [GA GB] WI. pose proof (ds_ids_nodup stable frags O) as ND. set (all := flat_map (frag_ids stable) frags) in *.
  assert (ALT : forall id, In id all -> (id < two64)%N).
  { intros id J. apply in_flat_map in J as [f [J1 J2]]. destruct O as [F _]. rewrite Forall_forall in F. eapply ids_lt; [apply F; exact J1|exact J2]. }
  assert (AFR : forall id, stable = false -> In id all -> In (fragment_id id) (map s_id frags)).
  { intros id -> J. apply in_flat_map in J as [f [J1 J2]]. destruct O as [F _]. rewrite Forall_forall in F. destruct (addrs_frag f id (F f J1) J2) as [-> _]. apply in_map. exact J1. }
  assert (RET : forall a, opt_good (Some a) -> exists a' l, retain_fragments stable a frags = Some a' /\ t_row_ids a' = Some l /\ NoDup l /\
            forall x, In x l <-> (x < two64)%N /\ t_contains x a = true /\ if stable then In x all else In (fragment_id x) (map s_id frags)).
  { intros a G. destruct (retain_fragments_spec stable a frags O G) as [a' [E [G' C]]]. destruct (good_ids a' G') as [l [El [N1 [L Q]]]]. exists a', l. split; [exact E|]. split; [exact El|]. split; [exact N1|].
    intros x. rewrite Forall_forall in L. split.
    - intros J. pose proof (L x J) as X. cbn beta in X. apply (Q x X), (C x X) in J as [A B]. split; [exact X|]. split; [exact A|]. unfold all. destruct stable; exact B.
    - intros [X [A B]]. apply (Q x X), (C x X). split; [exact A|]. unfold all in B. destruct stable; exact B. }
  unfold row_ids_for_mask. fold all. destruct m as [[a|] [b|]]; cbn [allow block selected] in *; unfold selected in WI; cbn [allow block] in WI; unfold ids_within in WI; cbn [allow block selected] in WI.
  - destruct (RET a GA) as [a' [l [-> [E [N1 Q]]]]]. cbn [obind]. rewrite E. eexists. split; [reflexivity|]. split; [apply NoDup_filter; exact N1|].
    intros id. unfold selected. cbn [allow block]. rewrite filter_In, Q, andb_true_iff. split.
    + intros [[X [A B]] C]. split; [|auto]. destruct stable; [exact B|]. apply (WI ltac:(discriminate) id X); [unfold selected; cbn [allow block]; rewrite A, C; reflexivity|exact B].
    + intros [J [A B]]. split; [|exact B]. split; [auto|]. split; [exact A|]. destruct stable; [exact J|auto].
  - destruct (RET a GA) as [a' [l [-> [E [N1 Q]]]]]. cbn [obind]. rewrite E. eexists. split; [reflexivity|]. split; [exact N1|].
    intros id. unfold selected. cbn [allow block]. rewrite Q. split.
    + intros [X [A B]]. split; [|exact A]. destruct stable; [exact B|]. apply (WI ltac:(discriminate) id X); [exact A|exact B].
    + intros [J A]. split; [auto|]. split; [exact A|]. destruct stable; [exact J|auto].
  - assert (RES : exists l, Some (filter (fun x => negb (t_contains x b)) all) = Some l /\ NoDup l /\ forall id, In id l <-> In id all /\ selected {| allow := None; block := Some b |} id = true).
    { eexists. split; [reflexivity|]. split; [apply NoDup_filter; exact ND|]. intros id. rewrite filter_In. reflexivity. }
    destruct stable; [|exact RES]. destruct (part_len b GB) as [lb [E L]]. rewrite L. destruct (good_ids b GB) as [lb' [E' [N1 [LT Q]]]]. rewrite E in E'. injection E' as <-.
    destruct (N.of_nat (length all) <? N.of_nat (length lb))%N eqn:C; [|exact RES]. exfalso. apply N.ltb_lt in C.
    assert (I : incl lb all). { intros x J. rewrite Forall_forall in LT. pose proof (LT x J) as X. cbn beta in X. apply (Q x X) in J. exact (WI eq_refl b eq_refl x X J). }
    pose proof (NoDup_incl_length N1 I). lia.
  - exists all. split; [reflexivity|]. split; [exact ND|]. intros id. cbn. tauto.
Qed.

(* ---- materialize ---- *)
(* every id that a leaf's result holds satisfies P *)
Fixpoint leaves_in (search : N -> aquery -> option tmap) (P : N -> Prop) (s : sidx) : Prop :=
  match s with
  | SNot a => leaves_in search P a
  | SAnd a b | SOr a b => leaves_in search P a /\ leaves_in search P b
  | SQuery c q => forall t, search c q = Some t -> forall x, (x < two64)%N -> t_contains x t = true -> P x
  end.
Definition opt_in (P : N -> Prop) (o : option tmap) : Prop := match o with Some t => forall x, (x < two64)%N -> t_contains x t = true -> P x | None => True end.
Lemma or_in : forall a b x, am_wf b -> t_contains x (t_or a b) = true -> t_contains x a = true \/ t_contains x b = true.
Proof. intros a b x W H. rewrite or_spec_exact in H by exact W. apply orb_true_iff in H as [H|H]; [auto|]. apply andb_true_iff in H as [H _]. auto. Qed.
Lemma both_in : forall P f x y, (forall a b, opt_good (Some a) -> opt_good (Some b) -> opt_in P (Some a) -> opt_in P (Some b) -> opt_in P (Some (f a b))) ->
  opt_good x -> opt_good y -> opt_in P x -> opt_in P y -> opt_in P (both f x y).
Proof. intros P f [x|] [y|] H A B C D; cbn [both]; auto. Qed.
Lemma and_in : forall P a b, opt_good (Some a) -> opt_good (Some b) -> opt_in P (Some a) -> opt_in P (Some b) -> opt_in P (Some (t_and a b)).
Proof. intros P a b [W _] _ A _ x X H. rewrite and_spec in H by exact (proj1 W). apply andb_true_iff in H as [H _]. apply (A x X H). Qed.
Lemma tor_in : forall P a b, opt_good (Some a) -> opt_good (Some b) -> opt_in P (Some a) -> opt_in P (Some b) -> opt_in P (Some (t_or a b)).
Proof. intros P a b _ [W _] A B x X H. destruct (or_in a b x (proj1 W) H) as [H1|H1]; [exact (A x X H1)|exact (B x X H1)]. Qed.
Lemma evaluate_in : forall search rows P s m, leaves_ok search rows s -> leaves_in search P s -> evaluate search s = Some m ->
  mask_good m /\ opt_in P (allow m) /\ opt_in P (block m).
Proof.
  intros search rows P s m. revert m. induction s as [a IH|a IHa b IHb|a IHa b IHb|c q]; intros m LO L E; cbn [leaves_in leaves_ok evaluate] in *.
  - destruct (evaluate search a) as [x|]; [|discriminate]. injection E as <-. destruct (IH x LO L eq_refl) as [[W1 W2] [A B]]. cbn. split; [split; assumption|auto].
  - destruct L as [La Lb], LO as [Oa Ob]. destruct (evaluate search a) as [x|]; [|discriminate]. destruct (evaluate search b) as [y|]; [|discriminate]. injection E as <-.
    destruct (IHa x Oa La eq_refl) as [[Wa Wb] [A B]]. destruct (IHb y Ob Lb eq_refl) as [[Wa' Wb'] [A' B']]. unfold mask_and. cbn [allow block].
    split; [split; apply both_good; auto; [apply and_good|apply or_good]|]. split; apply both_in; auto; [apply and_in|apply tor_in].
  - destruct L as [La Lb], LO as [Oa Ob]. destruct (evaluate search a) as [x|]; [|discriminate]. destruct (evaluate search b) as [y|]; [|discriminate]. injection E as <-.
    destruct (IHa x Oa La eq_refl) as [[Wa Wb] [A B]]. destruct (IHb y Ob Lb eq_refl) as [[Wa' Wb'] [A' B']]. unfold mask_or. cbn [allow block].
    split; [split; [|apply both_good; auto; apply and_good]|split; [|apply both_in; auto; apply and_in]].
    + destruct (allow x) as [p|], (allow y) as [q|]; try exact Logic.I. apply or_good; assumption.
    + destruct (allow x) as [p|], (allow y) as [q|]; try exact Logic.I. apply tor_in; assumption.
  - destruct LO as [t [Et [W [PO _]]]]. rewrite Et in E. cbn in E. injection E as <-. split; [split; [split; assumption|exact Logic.I]|]. split; [|exact Logic.I]. exact (L t Et).
Qed.

(* the deletion mask as seen from the rows of some fragments of the dataset *)
Lemma mask_live : forall stable ds rel, sds_ok stable ds -> incl rel ds ->
  exists pm, create_deletion_mask stable ds (s_of_list (map (fun f => s_id f mod two32)%N rel)) = Some pm /\
    match pm with
    | None => forall f, In f rel -> fr_dv (s_frag f) = None
    | Some p => mask_good p /\ has_shape (if stable then ShA else ShB) p /\
        forall f k id, In f rel -> nth_error (frag_ids stable f) k = Some id -> (selected p id = true <-> ~ In (N.of_nat k) (deleted f))
    end.
Proof.
  intros stable ds rel O I. assert (F := proj1 O). rewrite Forall_forall in F.
  assert (IDS : map (fun f => (s_id f mod two32)%N) rel = map s_id rel) by (apply map_ext_in; intros f J; apply sfrag_mod; exact (proj1 (F f (I f J)))). rewrite IDS.
  assert (NONE : (forall k, In k (s_of_list (map s_id rel)) -> exists f, In f ds /\ s_id f = k /\ fr_dv (s_frag f) = None) -> forall f, In f rel -> fr_dv (s_frag f) = None).
  { intros H f J. destruct (H (s_id f)) as [g [Jg [E D]]]; [apply s_of_list_In, in_map; exact J|]. rewrite <- (same_id ds g f (proj1 (proj2 O)) Jg (I f J) E). exact D. }
  destruct stable.
  - destruct (deletion_mask_row_ids ds (s_of_list (map s_id rel)) O) as [pm [E M]]. exists pm. split; [exact E|]. destruct pm as [p|]; [|exact (NONE M)].
    destruct M as [a [-> [W [P C]]]]. split; [split; [split; assumption|exact Logic.I]|]. split; [split; [discriminate|reflexivity]|]. intros f k id J X.
    assert (LT : (id < two64)%N) by (eapply ids_lt; [apply F, I; exact J|eapply nth_error_In; exact X]). unfold selected, from_allowed. cbn [allow block]. rewrite (C id LT), live_true_id by exact O. split.
    + intros [f' [k' [J' [X' D]]]]. pose proof (ds_ids_nodup true ds O) as ND.
      assert (f' = f). { eapply flat_map_owner; [exact ND|exact J'|apply I; exact J|eapply nth_error_In; exact X'|eapply nth_error_In; exact X]. } subst f'.
      assert (k' = k). { pose proof (flat_map_one _ _ f ND (I f J)) as N1. eapply NoDup_nth_error; [exact N1| |unfold frag_ids in *; congruence]. apply nth_error_Some. unfold frag_ids. congruence. } subst k'. exact D.
    + intros D. exists f, k. split; [apply I; exact J|]. split; [exact X|exact D].
  - destruct (deletion_mask_addresses ds (s_of_list (map s_id rel)) O) as [pm [E M]].
    { apply Forall_forall. intros k J. apply (proj1 (s_of_list_In _ _)) in J. apply in_map_iff in J as [f [<- J]]. exact (proj1 (F f (I f J))). }
    exists pm. split; [exact E|]. destruct pm as [p|]; [|exact (NONE M)]. destruct M as [b [-> [W [C P]]]].
    assert (PO : part_only b). { apply P. intros k J. apply (proj1 (s_of_list_In _ _)) in J. apply in_map_iff in J as [f [<- J]]. exists f. auto. }
    split; [split; [exact Logic.I|split; assumption]|]. split; [split; [reflexivity|discriminate]|]. intros f k id J X. unfold selected, from_block. cbn [allow block]. apply bool_neg. rewrite C.
    destruct (F f (I f J)) as [If [Pf [_ _]]]. cbn [frag_ids] in X. apply addrs_nth in X as [K ->]; [|exact If].
    destruct (address_roundtrip (s_id f) (N.of_nat k) If ltac:(lia)) as [_ [A B]]. rewrite A, B. split.
    + intros [_ [N1|[f' [J' [E' D]]]]]; [exfalso; exact (N1 f (I f J) eq_refl)|]. rewrite <- (same_id ds f' f (proj1 (proj2 O)) J' (I f J) E'). exact D.
    + intros D. split; [apply s_of_list_In, in_map; exact J|]. right. exists f. auto.
Qed.

(* where the ids in the leaves' results must lie *)
Definition leaves_within (stable : bool) (search : N -> aquery -> option tmap) (s : sidx) (rel : list sfrag) : Prop :=
  if stable
  then shape_of s = Some ShB -> (forall f, In f rel -> fr_dv (s_frag f) = None) -> leaves_in search (fun x => In x (flat_map (frag_ids true) rel)) s
  else leaves_in search (fun x => In (fragment_id x) (map s_id rel) -> In x (flat_map (frag_ids false) rel)) s.

Theorem materialize_spec : forall stable ds search s sh rel, sds_ok stable ds -> incl rel ds -> NoDup (map s_id rel) ->
  shape_of s = Some sh -> leaves_ok search (live stable rel) s -> leaves_within stable search s rel ->
  exists ids, materialize stable ds search s rel = Some ids /\ NoDup ids /\
    forall id, In id ids <-> exists r, In (id, r) (live stable rel) /\ sat r s.
Proof.
  intros stable ds search s sh rel O I D SH LO LW. pose proof (sub_ds_ok stable ds rel O I D) as OR.
  assert (F := proj1 OR). rewrite Forall_forall in F.
  destruct (evaluate_spec search (live stable rel) s sh SH LO) as [m [E [S [G Q]]]]. destruct (mask_live stable ds rel O I) as [pm [EP MP]].
  unfold materialize. rewrite E. cbn [obind]. rewrite EP. cbn [obind].
  set (cm := match pm with Some p => mask_and m p | None => m end).
  assert (GC : mask_good cm).
  { unfold cm. destruct pm as [p|]; [|exact G]. destruct MP as [[P1 P2] _], G as [G1 G2]. split; apply both_good; auto; [apply and_good|apply or_good]. }
  assert (SEL : forall f k id, In f rel -> nth_error (frag_ids stable f) k = Some id -> (selected cm id = true <-> selected m id = true /\ ~ In (N.of_nat k) (deleted f))).
  { intros f k id J X. unfold cm. destruct pm as [p|].
    - destruct MP as [GP [_ C]]. rewrite mask_and_spec; [|apply good_wf; exact G|apply good_wf; exact GP|].
      + rewrite andb_true_iff, (C f k id J X). reflexivity.
      + unfold blocks_unitable. destruct (block m) as [bm|]; [|exact Logic.I]. destruct GP as [_ G2]. destruct (block p) as [b'|]; [|exact Logic.I]. intros k' u _. apply (proj2 G2).
    - unfold deleted. rewrite (MP f J). tauto. }
  destruct (row_ids_for_mask_spec stable cm rel OR GC) as [l [EL [NL L]]].
  { unfold ids_within. destruct stable.
    - intros EA b EB x X C. unfold cm in EA, EB. destruct pm as [p|].
      + destruct MP as [_ [[HA _] _]]. cbn in EA. destruct (allow m), (allow p); cbn in EA; congruence.
      + assert (SB : sh = ShB). { destruct sh; destruct S as [S1 S2]; congruence. } subst sh.
        destruct (evaluate_in search (live true rel) _ s m LO (LW SH MP) E) as [_ [_ B]]. rewrite EB in B. exact (B x X C).
    - intros EA x X SX FX. destruct (evaluate_in search (live false rel) _ s m LO LW E) as [_ [A _]].
      assert (AM : exists a, allow m = Some a /\ t_contains x a = true).
      { assert (SM : selected m x = true).
        { unfold cm in SX. destruct pm as [p|]; [|exact SX]. destruct MP as [GP [_ C]]. rewrite mask_and_spec in SX; [apply andb_true_iff in SX; tauto|apply good_wf; exact G|apply good_wf; exact GP|].
          unfold blocks_unitable. destruct (block m) as [bm|]; [|exact Logic.I]. destruct GP as [_ G2]. destruct (block p) as [b'|]; [|exact Logic.I]. intros k' u _. apply (proj2 G2). }
        rewrite selected_spec in SM. apply andb_true_iff in SM as [SM _]. unfold allows in SM.
        assert (AMN : allow m <> None). { unfold cm in EA. destruct pm as [p|]; [|exact EA]. destruct MP as [_ [[HA _] _]]. cbn in EA. rewrite HA in EA. destruct (allow m); [discriminate|exact EA]. }
        destruct (allow m) as [a|]; [exists a; auto|congruence]. }
      destruct AM as [a [Ea Ca]]. rewrite Ea in A. exact (A x X Ca FX). }
  exists l. split; [exact EL|]. split; [exact NL|]. intros id. rewrite (L id). split.
  - intros [J X]. apply in_flat_map in J as [f [Jf J]]. apply In_nth_error in J as [k J]. apply (SEL f k id Jf J) in X as [X ND].
    destruct (row_exists stable f k id (F f Jf) J) as [r R]. assert (JL : In (id, r) (live stable rel)). { apply live_in_ds. exists f. split; [exact Jf|]. apply live_In; [auto|]. exists k. auto. }
    exists r. split; [exact JL|]. apply (Q id r JL). exact X.
  - intros [r [JL SR]]. assert (JL' := JL). apply live_in_ds in JL as [f [Jf J]]. apply live_In in J as [k [[J JR] ND]]; [|auto]. split.
    + apply in_flat_map. exists f. split; [exact Jf|]. eapply nth_error_In. exact J.
    + apply (SEL f k id Jf J). split; [|exact ND]. apply (Q id r JL'). exact SR.
Qed.

(* ---- the scan ---- *)
Lemma find_live : forall (l : list (N * row)) id r, NoDup (map fst l) -> In (id, r) l -> find (fun p => (fst p =? id)%N) l = Some (id, r).
Proof.
  induction l as [|[i x] l IH]; intros id r D J; [destruct J|]. cbn in D. inversion D as [|? ? N1 N2]; subst. cbn [find fst]. destruct (i =? id)%N eqn:E.
  - apply N.eqb_eq in E. subst i. destruct J as [J|J]; [congruence|]. exfalso. apply N1. apply in_map_iff. exists (id, r). auto.
  - apply IH; [exact N2|]. destruct J as [J|J]; [|exact J]. injection J as -> ->. rewrite N.eqb_refl in E. discriminate.
Qed.
Lemma take_ids_spec : forall stable ds ids, sds_ok stable ds -> NoDup ids -> (forall id, In id ids -> exists r, In (id, r) (live stable ds)) ->
  exists out, take_ids stable ds ids = Some out /\ map fst out = ids /\ forall id r, In (id, r) out <-> In id ids /\ In (id, r) (live stable ds).
Proof.
  intros stable ds ids O D H. pose proof (live_fst_nodup stable ds O) as NL. unfold take_ids. induction ids as [|i ids IH].
  - exists []. split; [reflexivity|]. split; [reflexivity|]. intros id r. split; [intros []|intros [[] _]].
  - inversion D; subst. destruct IH as [out [E [M Q]]]; [assumption|intros id J; apply H; right; exact J|]. destruct (H i (or_introl eq_refl)) as [r J].
    cbn [map sequence_opt]. rewrite (find_live _ i r NL J), E. exists ((i, r) :: out). split; [reflexivity|]. split; [cbn; rewrite M; reflexivity|]. intros id r'. cbn [In]. rewrite Q. split.
    + intros [X|[X Y]]; [injection X as <- <-; auto|auto].
    + intros [[<-|X] Y]; [left|right; auto]. pose proof (find_live _ i r NL J) as F1. rewrite (find_live _ i r' NL Y) in F1. congruence.
Qed.
Lemma passes_holds : forall r e, passes r e = true <-> holds r e.
Proof. intros r e. unfold passes, holds. destruct (vb (eval r e)) as [[|]|]; split; congruence. Qed.

Theorem filtered_scan_spec : forall stable ds requested f search bitmap e,
  sds_ok stable ds -> incl requested ds -> NoDup (map s_id requested) ->
  (forall id r, In (id, r) (live stable requested) -> typed f r /\ nullsafe r e) ->
  (forall s, scalar_query (apply_scalar_indices f e) = Some s ->
     let cov g := memN (s_id g) (covered_frags bitmap s) in
     shape_of s <> None /\ leaves_ok search (live stable (filter cov requested)) s /\ leaves_within stable search s (filter cov requested) /\
     forall g, In g requested -> cov g = false -> to_expr s <> None /\ forall id r, In (id, r) (frag_live stable g) -> boolsafe r e) ->
  exists out, filtered_scan stable ds requested f search bitmap e = Some out /\
    Permutation out (filter (fun p => passes (snd p) e) (live stable requested)).
Proof.
  intros stable ds requested f search bitmap e O I D TN H. pose proof (sub_ds_ok stable ds requested O I D) as OR. pose proof (live_fst_nodup _ _ OR) as NL.
  assert (F := proj1 O). rewrite Forall_forall in F.
  unfold filtered_scan. unfold apply_scalar_indices in *. destruct (visit f e) as [i|] eqn:V.
  2:{ cbn. eexists. split; [reflexivity|]. apply Permutation_refl. }
  destruct (has_query f e i V) as [s ES]. rewrite ES. specialize (H s ES). cbv zeta in H. destruct H as [SH [LO [LW UN]]].
  destruct (shape_of s) as [sh|] eqn:SHE; [clear SH|congruence].
  set (cov := fun g => memN (s_id g) (covered_frags bitmap s)) in *.
  assert (COV : forall g, In g requested -> memN (s_id g mod two32)%N (covered_frags bitmap s) = cov g) by (intros g J; unfold cov; rewrite sfrag_mod by exact (proj1 (F g (I g J))); reflexivity).
  unfold scalar_indexed_scan.
  rewrite (filter_ext_in' (fun f0 => memN (s_id f0 mod two32)%N (covered_frags bitmap s)) cov requested COV).
  rewrite (filter_ext_in' (fun f0 => negb (memN (s_id f0 mod two32)%N (covered_frags bitmap s))) (fun g => negb (cov g)) requested) by (intros g J; rewrite COV by exact J; reflexivity).
  set (rel := filter cov requested) in *. set (mis := filter (fun g => negb (cov g)) requested).
  assert (IR : incl rel ds) by (intros g J; apply I; unfold rel in J; apply filter_In in J; tauto).
  assert (DR : NoDup (map s_id rel)) by (apply NoDup_map_filter; exact D).
  destruct (materialize_spec stable ds search s sh rel O IR DR SHE LO LW) as [ids [EM [NI Q]]]. rewrite EM. cbn [obind].
  assert (LIVE : forall g id r, In g requested -> In (id, r) (frag_live stable g) -> In (id, r) (live stable requested)) by (intros g id r J X; apply live_in_ds; exists g; auto).
  destruct (take_ids_spec stable ds ids O NI) as [old [ET [MF QO]]].
  { intros id J. apply Q in J as [r [J _]]. exists r. apply live_in_ds in J as [g [Jg J]]. apply live_in_ds. exists g. auto. }
  rewrite ET. cbn [obind].
  assert (OLD : forall id r, In (id, r) old <-> In (id, r) (live stable rel) /\ sat r s).
  { intros id r. rewrite QO, Q. split.
    - intros [[r' [J S]] X]. assert (r' = r). { apply live_in_ds in J as [g [Jg J]]. assert (Y : In (id, r') (live stable ds)) by (apply live_in_ds; exists g; auto).
        pose proof (live_fst_nodup _ _ O) as N1. pose proof (find_live _ _ _ N1 X) as F1. rewrite (find_live _ _ _ N1 Y) in F1. congruence. } subst r'. auto.
    - intros [J S]. split; [exists r; auto|]. apply live_in_ds in J as [g [Jg J]]. apply live_in_ds. exists g. auto. }
  assert (RESULT : exists t', (match mis with [] => Some old | _ => omap (fun x => old ++ filter (fun p => passes (snd p) x) (live stable mis)) (to_expr s) end) = Some t' /\
            NoDup t' /\ forall id r, In (id, r) t' <-> In (id, r) (live stable requested) /\ sat r s).
  { assert (SPLIT : forall id r, In (id, r) (live stable requested) <-> In (id, r) (live stable rel) \/ In (id, r) (live stable mis)).
    { intros id r. rewrite !live_in_ds. split.
      - intros [g [J X]]. destruct (cov g) eqn:C; [left|right]; exists g; split; auto; apply filter_In; rewrite C; auto.
      - intros [[g [J X]]|[g [J X]]]; apply filter_In in J as [J _]; exists g; auto. }
    assert (NO : NoDup old) by (apply NoDup_map_inv with (f := fst); rewrite MF; exact NI).
    destruct mis as [|g0 mis'] eqn:EMIS.
    - exists old. split; [reflexivity|]. split; [exact NO|]. intros id r. rewrite OLD, SPLIT. cbn. tauto.
    - rewrite <- EMIS in *. assert (J0 : In g0 mis) by (rewrite EMIS; left; reflexivity). assert (J0' := J0). unfold mis in J0. apply filter_In in J0 as [J0 C0]. apply negb_true_iff in C0.
      destruct (to_expr s) as [t|] eqn:TE; [|destruct (UN g0 J0 C0) as [X _]; congruence]. cbn [omap].
      assert (NM : NoDup (live stable mis)). { apply NoDup_map_inv with (f := fst). apply live_fst_nodup. eapply sub_ds_ok; [exact OR| |apply NoDup_map_filter; exact D]. intros g J. apply filter_In in J. tauto. }
      assert (TS : forall id r, In (id, r) (live stable mis) -> (passes r t = true <-> sat r s)).
      { intros id r J. rewrite passes_holds. apply live_in_ds in J as [g [Jg J]]. apply filter_In in Jg as [Jg C]. apply negb_true_iff in C. destruct (TN id r (LIVE g id r Jg J)) as [T N1].
        eapply to_expr_sound; eauto. destruct (UN g Jg C) as [_ B]. exact (B id r J). }
      eexists. split; [reflexivity|]. split.
      + apply NoDup_app_intro; [exact NO|apply NoDup_filter; exact NM|]. intros [id r] X Y. apply OLD in X as [X _]. apply filter_In in Y as [Y _].
        apply live_in_ds in X as [g [Jg X]]. apply live_in_ds in Y as [g' [Jg' Y]]. apply filter_In in Jg as [Jg C]. apply filter_In in Jg' as [Jg' C'].
        assert (g = g'). { eapply flat_map_owner; [exact (ds_ids_nodup _ _ O)|apply I; exact Jg|apply I; exact Jg'| |]; eapply frag_live_id; try (apply F, I; assumption); eassumption. }
        subst g'. rewrite C in C'. discriminate.
      + intros id r. rewrite in_app_iff, OLD, filter_In, SPLIT. cbn [snd]. split.
        * intros [[A B]|[A B]]; [auto|]. split; [auto|]. apply (TS id r A). exact B.
        * intros [[A|A] B]; [auto|]. right. split; [exact A|]. apply (TS id r A). exact B. }
  destruct RESULT as [t' [ER [NT QT]]]. rewrite ER. cbn [omap]. eexists. split; [reflexivity|].
  assert (NDL : NoDup (live stable requested)) by (eapply NoDup_map_inv; exact NL).
  assert (VS : forall id r, In (id, r) (live stable requested) -> (iholds r i <-> holds r e)).
  { intros id r J. destruct (TN id r J) as [T N1]. eapply visit_sound; eauto. }
  apply NoDup_Permutation.
  - destruct (refine_expr i); [apply NoDup_filter|]; exact NT.
  - apply NoDup_filter. exact NDL.
  - intros [id r]. rewrite filter_In. cbn [snd]. assert (X : In (id, r) (match refine_expr i with Some x => filter (fun p => passes (snd p) x) t' | None => t' end) <-> In (id, r) (live stable requested) /\ iholds r i).
    { unfold iholds. rewrite ES. destruct (refine_expr i) as [x|]; [rewrite filter_In|]; rewrite QT; cbn [snd]; [rewrite passes_holds|]; tauto. }
    rewrite X. rewrite passes_holds. split; intros [A B]; split; auto; apply (VS id r A); exact B.
Qed.
