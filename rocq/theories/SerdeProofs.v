From Coq Require Import List Arith NArith Bool Lia ZifyBool ZifyN ZifyNat Permutation.
From Verif Require Import Lib RowIdsModel RowIdsSpec EncArrProofs SegProofs SeqProofs SerdeModel.
Import ListNotations.
Local Open Scope nat_scope.

Lemma le_bytes_length : forall n v, length (le_bytes n v) = n.
Proof. induction n; simpl; auto. Qed.

Lemma le_bytes_byte : forall n v b, In b (le_bytes n v) -> (b < 256)%N.
Proof.
  induction n; simpl; intros v b H; [destruct H|]. destruct H as [<-|H]; [|eauto].
  apply N.mod_lt. lia.
Qed.

Lemma of_le_bytes_le : forall n v, (v < 256 ^ N.of_nat n)%N -> of_le_bytes (le_bytes n v) = v.
Proof.
  induction n; intros v H.
  - simpl in *. lia.
  - cbn [le_bytes of_le_bytes]. rewrite IHn.
    + rewrite N.add_comm. symmetry. apply N.div_mod. lia.
    + apply N.div_lt_upper_bound; [lia|]. rewrite <- N.pow_succ_r'. replace (N.succ (N.of_nat n)) with (N.of_nat (S n)) by lia. exact H.
Qed.

Lemma chunks_exact_flat : forall n, 0 < n -> forall l fuel, length (flat_map (le_bytes n) l) <= fuel ->
  chunks_exact fuel n (flat_map (le_bytes n) l) = map (le_bytes n) l.
Proof.
  intros n Hn. induction l as [|v l IH]; intros fuel Hf.
  - destruct fuel; simpl; auto. replace (0 <? n) with true by lia. reflexivity.
  - cbn [flat_map] in *. rewrite app_length, le_bytes_length in Hf.
    destruct fuel as [|fuel]; [lia|]. cbn [chunks_exact]. rewrite app_length, le_bytes_length.
    replace (n + length (flat_map (le_bytes n) l) <? n) with false by lia.
    rewrite firstn_app, le_bytes_length, Nat.sub_diag, firstn_all2 by (rewrite le_bytes_length; lia).
    cbn [firstn]. rewrite app_nil_r. cbn [map]. f_equal.
    rewrite skipn_app, le_bytes_length, Nat.sub_diag, skipn_all2 by (rewrite le_bytes_length; lia).
    cbn [app skipn]. apply IH. lia.
Qed.

Lemma flat_le_length : forall n l, length (flat_map (le_bytes n) l) = length l * n.
Proof. induction l; simpl; auto. rewrite app_length, le_bytes_length, IHl. lia. Qed.

Lemma map_of_le : forall n l, Forall (fun x => (x < 256 ^ N.of_nat n)%N) l ->
  map of_le_bytes (map (le_bytes n) l) = l.
Proof.
  intros n l H. rewrite map_map. apply map_id_in. rewrite Forall_forall in H. intros. apply of_le_bytes_le. auto.
Qed.

Lemma ea_serde : forall a, ea_wf a -> ea_decode (ea_encode a) = Some a.
Proof.
  intros [b o|b o|v] Hw; simpl in Hw; unfold ea_encode, ea_decode; rewrite flat_le_length, Nat.mod_mul by lia;
    cbn [Nat.eqb]; rewrite chunks_exact_flat by (try rewrite flat_le_length; lia); rewrite map_of_le; auto.
  - destruct Hw as [H _]. eapply Forall_impl; [|exact H]. unfold u16_max. simpl. lia.
  - destruct Hw as [H _]. eapply Forall_impl; [|exact H]. unfold u32_max. simpl. lia.
Qed.

Lemma seg_serde : forall s, seg_wf s -> seg_decode (seg_encode s) = Some s.
Proof.
  intros [a b|a b h|a b bm|x|x] Hw; cbn [seg_encode seg_decode obind] in *; simpl in Hw; auto.
  - rewrite ea_serde by tauto. reflexivity.
  - destruct Hw as [H1 [H2 H3]]. replace (b <? a)%N with false by lia. rewrite <- H3.
    destruct bm; reflexivity.
  - rewrite ea_serde by tauto. reflexivity.
  - rewrite ea_serde by tauto. reflexivity.
Qed.

(** C09 *)
Theorem seq_serde : forall q, seq_wf q -> seq_decode (seq_encode q) = Some q.
Proof.
  unfold seq_decode, seq_encode. induction q as [|s q IH]; intros Hw; [reflexivity|].
  inversion Hw; subst. cbn [map sequence_opt]. rewrite seg_serde by auto. rewrite IH by auto. reflexivity.
Qed.

Example seq_serde_ex : seq_decode (seq_encode [Range 3 9; Holes 0 10 (EU16 5 [0]%N); Arr (EU32 7 [70000; 0]%N)])
  = Some [Range 3 9; Holes 0 10 (EU16 5 [0]%N); Arr (EU32 7 [70000; 0]%N)].
Proof. vm_compute. reflexivity. Qed.

(** * C10 *)

Lemma seg_range_le : forall s lo hi, seg_wf s -> seg_range s = Some (Some (lo, hi)) -> (lo <= hi)%N.
Proof.
  intros s lo hi Hw H. destruct s as [a b|a b h|a b bm|x|x]; simpl in *.
  - destruct (a <? b)%N eqn:E; inversion H; subst. lia.
  - inversion H; subst. lia.
  - inversion H; subst. lia.
  - rewrite ea_first_iter, ea_last_iter in H. destruct Hw as [_ [Hs [Hne _]]].
    destruct (ea_iter x) as [|v l]; [congruence|]. simpl hd_error in H. simpl lastN in H.
    inversion H; subst. destruct Hs as [H1 _]. destruct l; [simpl; lia|].
    assert (In (last (n :: l) 0%N) (n :: l)).
    { assert (E : n :: l = removelast (n :: l) ++ [last (n :: l) 0%N]) by (apply app_removelast_last; discriminate).
      rewrite E at 2. apply in_or_app. right. now left. }
    assert (H2 := H1 _ H0). change (last (lo :: n :: l) 0%N) with (last (n :: l) 0%N). lia.
  - destruct Hw as [H1 [H2 _]]. destruct (ea_min_spec x H1 H2) as [m [E1 [E2 E3]]].
    rewrite E1, ea_max_iter in H. destruct (list_maxN (ea_iter x)) as [m2|] eqn:E4; [|discriminate].
    inversion H; subst. apply list_maxN_spec in E4. now apply E4.
Qed.

(* a piece of the index describes segment [s] whose first id is at address [st] *)
Definition piece_ok (p : piece) : Prop :=
  seg_wf (pc_ids p) /\ seg_range (pc_ids p) = Some (Some (pc_lo p, pc_hi p)) /\
  exists st, pc_addr p = Range st (st + N.of_nat (length (seg_iter (pc_ids p)))) /\
             (st + N.of_nat (length (seg_iter (pc_ids p))) < two64)%N.

Lemma decompose_spec : forall q start, seq_wf q -> (start + N.of_nat (length (seq_iter q)) < two64)%N ->
  exists ps, decompose start q = Some ps /\ Forall piece_ok ps /\
    (forall i id, nth_error (seq_iter q) i = Some id ->
       exists p pos st, In p ps /\ nth_error (seg_iter (pc_ids p)) pos = Some id /\
         pc_addr p = Range st (st + N.of_nat (length (seg_iter (pc_ids p)))) /\
         (st + N.of_nat pos = start + N.of_nat i)%N) /\
    (forall p id, In p ps -> In id (seg_iter (pc_ids p)) -> In id (seq_iter q)).
Proof.
  induction q as [|s q IH]; intros start Hw Hb.
  - exists []. split; [reflexivity|]. split; [constructor|]. split.
    + intros i id H. simpl in H. now rewrite nth_error_nil' in H.
    + intros p id [].
  - inversion Hw as [|? ? Hs Hq]; subst. cbn [seq_iter flat_map] in Hb. rewrite app_length in Hb. fold (seq_iter q) in Hb.
    cbn [decompose]. rewrite (seg_len_iter s Hs). set (n := length (seg_iter s)) in *.
    destruct (IH (start + N.of_nat n)%N Hq ltac:(lia)) as [ps [E1 [E2 [E3 E4]]]].
    assert (Hrest : forall i id, nth_error (seq_iter (s :: q)) i = Some id -> n <= i ->
       exists p pos st, In p ps /\ nth_error (seg_iter (pc_ids p)) pos = Some id /\
         pc_addr p = Range st (st + N.of_nat (length (seg_iter (pc_ids p)))) /\
         (st + N.of_nat pos = start + N.of_nat i)%N).
    { intros i id Hi Hn. cbn [seq_iter flat_map] in Hi. fold (seq_iter q) in Hi.
      rewrite nth_error_app2 in Hi by auto. fold n in Hi. destruct (E3 _ _ Hi) as [p [pos [st [A [B [C D]]]]]].
      exists p, pos, st. repeat split; auto. lia. }
    destruct (seg_range_total s Hs) as [r Er]. rewrite Er. destruct r as [[lo hi]|].
    + rewrite E1. cbn [omap]. set (p0 := {| pc_lo := lo; pc_hi := hi; pc_ids := s; pc_addr := _ |}).
      exists (p0 :: ps). split; auto. split.
      * constructor; auto. unfold p0, piece_ok. cbn. fold n. split; auto. split; auto. exists start. split; auto. lia.
      * split.
        -- intros i id Hi. destruct (Nat.lt_ge_cases i n) as [Hlt|Hge].
           ++ exists p0, i, start. split; [now left|]. cbn. fold n. repeat split; auto.
              cbn [seq_iter flat_map] in Hi. now rewrite nth_error_app1 in Hi.
           ++ destruct (Hrest _ _ Hi Hge) as [p [pos [st [A B]]]]. exists p, pos, st. split; auto. now right.
        -- intros p id [<-|Hp] Hin; cbn [seq_iter flat_map]; apply in_or_app; [left; auto|right; eapply E4; eauto].
    + exists ps. split; auto. split; auto. split.
      * intros i id Hi. apply Hrest; auto. destruct (Nat.lt_ge_cases i n) as [Hlt|Hge]; auto. exfalso.
        cbn [seq_iter flat_map] in Hi. rewrite nth_error_app1 in Hi by auto. apply nth_error_In in Hi.
        destruct (seg_range_spec s id Hs Hi) as [a [b [E _]]]. congruence.
      * intros p id Hp Hin. cbn [seq_iter flat_map]. apply in_or_app. right. eapply E4; eauto.
Qed.

Lemma insert_piece_perm : forall p l, Permutation (insert_piece p l) (p :: l).
Proof.
  induction l as [|q l IH]; simpl; auto. destruct (pc_lo p <=? pc_lo q)%N; auto.
  rewrite IH. apply perm_swap.
Qed.
Lemma sort_pieces_perm : forall l, Permutation (sort_pieces l) l.
Proof. induction l; simpl; auto. rewrite insert_piece_perm. now constructor. Qed.

Fixpoint lo_sorted (l : list piece) : Prop :=
  match l with [] => True | p :: t => (forall q, In q t -> (pc_lo p <= pc_lo q)%N) /\ lo_sorted t end.

Lemma insert_piece_sorted : forall p l, lo_sorted l -> lo_sorted (insert_piece p l).
Proof.
  induction l as [|q l IH]; simpl; intros H; [split; auto; tauto|].
  destruct H as [H1 H2]. destruct (pc_lo p <=? pc_lo q)%N eqn:E; simpl.
  - split; auto. intros r [<-|Hr]; [lia|]. specialize (H1 _ Hr). lia.
  - split; auto. intros r Hr. apply (Permutation_in _ (insert_piece_perm p l)) in Hr.
    destruct Hr as [<-|Hr]; [lia|auto].
Qed.
Lemma sort_pieces_sorted : forall l, lo_sorted (sort_pieces l).
Proof. induction l; simpl; auto. now apply insert_piece_sorted. Qed.

(* not overlapping: the piece found for a covered id is the one covering it *)
Lemma find_piece : forall l p id, lo_sorted l -> overlapping l = false ->
  Forall (fun p => (pc_lo p <= pc_hi p)%N) l -> In p l -> (pc_lo p <= id <= pc_hi p)%N ->
  find (fun p => (pc_lo p <=? id)%N && (id <=? pc_hi p)%N) l = Some p.
Proof.
  induction l as [|q l IH]; intros p id Hs Ho Hf Hin Hid; [destruct Hin|].
  destruct Hs as [H1 H2]. inversion Hf as [|? ? Hq Hf']; subst.
  assert (Ho' : overlapping l = false) by (destruct l; auto; simpl in Ho; apply orb_false_iff in Ho; tauto).
  cbn [find]. destruct Hin as [->|Hin].
  - replace ((pc_lo p <=? id)%N && (id <=? pc_hi p)%N) with true by lia. reflexivity.
  - replace ((pc_lo q <=? id)%N && (id <=? pc_hi q)%N) with false; [now apply IH|].
    symmetry. destruct l as [|r l]; [destruct Hin|]. cbn [overlapping] in Ho. apply orb_false_iff in Ho.
    destruct Ho as [Ho _]. assert (pc_lo r <= pc_lo p)%N.
    { destruct Hin as [->|Hin]; [lia|]. destruct H2 as [H2 _]. auto. }
    lia.
Qed.

Lemma in_concat_map : forall (frags : list (N * rowseq)) pss,
  sequence_opt (map (fun '(f, q) => decompose (addr_of f 0) q) frags) = Some pss ->
  forall p, In p (concat pss) <-> exists f q ps, In (f, q) frags /\ decompose (addr_of f 0) q = Some ps /\ In p ps.
Proof.
  induction frags as [|[f q] frags IH]; intros pss H p; simpl in H.
  - injection H as <-. simpl. split; [tauto|]. intros [? [? [? [[] _]]]].
  - destruct (decompose (addr_of f 0) q) as [ps|] eqn:E; [|discriminate].
    destruct (sequence_opt _) as [pss'|]; [|discriminate]. injection H as <-.
    simpl. rewrite in_app_iff, (IH _ eq_refl). split.
    + intros [Hp|[f' [q' [ps' [A [B C]]]]]].
      * exists f, q, ps. auto.
      * exists f', q', ps'. auto.
    + intros [f' [q' [ps' [[A|A] [B C]]]]].
      * injection A as <- <-. left. congruence.
      * right. exists f', q', ps'. auto.
Qed.

Definition frag_ok (x : N * rowseq) : Prop :=
  (fst x < two32)%N /\ seq_wf (snd x) /\ NoDup (seq_iter (snd x)) /\ (N.of_nat (length (seq_iter (snd x))) < two32)%N.

Lemma frag_addr_bound : forall f q, frag_ok (f, q) -> (addr_of f 0 + N.of_nat (length (seq_iter q)) < two64)%N.
Proof.
  intros f q [H1 [_ [_ H2]]]. simpl in *. unfold addr_of, two32, two64 in *. lia.
Qed.

Lemma index_new_total : forall frags, Forall frag_ok frags ->
  exists pss, sequence_opt (map (fun '(f, q) => decompose (addr_of f 0) q) frags) = Some pss.
Proof.
  induction frags as [|[f q] frags IH]; intros H; simpl; eauto.
  inversion H as [|? ? Hf Hr]; subst. destruct (IH Hr) as [pss E].
  destruct (decompose_spec q (addr_of f 0)) as [ps [E1 _]]; [apply Hf|now apply frag_addr_bound|].
  rewrite E1, E. eauto.
Qed.

Theorem index_lookup : forall frags, Forall frag_ok frags ->
  match index_new frags with
  | IOk idx =>
      (forall f q i id, In (f, q) frags -> nth_error (seq_iter q) i = Some id ->
         index_get idx id = Some (addr_of f (N.of_nat i))) /\
      (forall id, (forall f q, In (f, q) frags -> ~ In id (seq_iter q)) -> index_get idx id = None)
  | IOverlap => True
  | IPanic => False
  end.
Proof.
  intros frags Hf. unfold index_new. destruct (index_new_total frags Hf) as [pss E]. rewrite E.
  destruct (overlapping (sort_pieces (concat pss))) eqn:Eo; auto.
  assert (Hin := in_concat_map frags pss E).
  assert (Hpok : forall p, In p (sort_pieces (concat pss)) ->
     exists f q ps, In (f, q) frags /\ decompose (addr_of f 0) q = Some ps /\ In p ps /\ piece_ok p /\
       (forall id, In id (seg_iter (pc_ids p)) -> In id (seq_iter q))).
  { intros p Hp. apply (Permutation_in _ (sort_pieces_perm _)) in Hp. apply Hin in Hp.
    destruct Hp as [f [q [ps [A [B C]]]]]. exists f, q, ps. repeat (split; [assumption|]).
    rewrite Forall_forall in Hf. assert (Hfq := Hf _ A).
    destruct (decompose_spec q (addr_of f 0)) as [ps' [E1 [E2 [_ E4]]]]; [apply Hfq|now apply frag_addr_bound|].
    assert (ps' = ps) by congruence. subst ps'. rewrite Forall_forall in E2. split; auto. intros; eapply E4; eauto. }
  assert (Hle : Forall (fun p => (pc_lo p <= pc_hi p)%N) (sort_pieces (concat pss))).
  { apply Forall_forall. intros p Hp. destruct (Hpok p Hp) as [_ [_ [_ [_ [_ [_ [[W [R _]] _]]]]]]].
    eapply seg_range_le; eauto. }
  split.
  - intros f q i id Hfq Hi. assert (Hfok := proj1 (Forall_forall _ _) Hf _ Hfq).
    destruct (decompose_spec q (addr_of f 0)) as [ps [E1 [E2 [E3 _]]]]; [apply Hfok|now apply frag_addr_bound|].
    destruct (E3 i id Hi) as [p [pos [st [A [B [C D]]]]]].
    assert (Hp : In p (sort_pieces (concat pss))).
    { apply (Permutation_in _ (Permutation_sym (sort_pieces_perm _))). apply Hin. exists f, q, ps. auto. }
    rewrite Forall_forall in E2. destruct (E2 _ A) as [W [R [st' [S1 S2]]]].
    assert (st' = st) by congruence. subst st'.
    destruct (seg_range_spec (pc_ids p) id W) as [lo [hi [R1 R2]]]; [now apply nth_error_In in B|].
    assert (lo = pc_lo p /\ hi = pc_hi p) as [-> ->] by (split; congruence).
    unfold index_get. rewrite (find_piece _ p id); auto; [|apply sort_pieces_sorted].
    assert (Hpn : NoDup (seg_iter (pc_ids p))).
    { (* a segment of q *)
      assert (G : forall q start ps, decompose start q = Some ps -> NoDup (seq_iter q) -> In p ps -> NoDup (seg_iter (pc_ids p))).
      { clear. induction q as [|s q IH]; intros start ps H Hd Hp; simpl in H.
        - injection H as <-. destruct Hp.
        - simpl in Hd. apply NoDup_app_l in Hd. destruct Hd as [D1 D2].
          destruct (seg_range s) as [[[lo hi]|]|]; try discriminate.
          + destruct (decompose _ q) eqn:E; [|discriminate]. injection H as <-. destruct Hp as [<-|Hp]; auto.
            eapply IH; eauto.
          + eapply IH; eauto. }
      eapply G; eauto. apply Hfok. }
    assert (Hpos : seg_position (pc_ids p) id = Some pos).
    { apply seg_position_iff; auto. now apply NoDup_first_index. }
    rewrite Hpos, C. cbn [seg_get].
    assert (pos < length (seg_iter (pc_ids p))) by (apply nth_error_Some; congruence).
    replace (st + N.of_nat pos <? two64)%N with true by lia.
    replace (st + N.of_nat pos <? st + N.of_nat (length (seg_iter (pc_ids p))))%N with true by lia.
    cbn [andb]. f_equal. unfold addr_of in *. lia.
  - intros id Hno. unfold index_get. destruct (find _ _) as [p|] eqn:Ef; auto.
    apply find_some in Ef. destruct Ef as [Hp _]. destruct (Hpok p Hp) as [f [q [ps [A [_ [_ [[W _] Hsub]]]]]]].
    destruct (seg_position (pc_ids p) id) as [pos|] eqn:Epos; auto. exfalso.
    apply seg_position_iff in Epos; auto. apply first_index_In in Epos. apply (Hno f q A). auto.
Qed.

(* construction succeeds whenever the id ranges of the segments are disjoint *)
Definition seg_disjoint (s t : segment) : Prop :=
  forall lo hi lo' hi', seg_range s = Some (Some (lo, hi)) -> seg_range t = Some (Some (lo', hi')) ->
    (hi < lo' \/ hi' < lo)%N.

Definition piece_disj (p q : piece) : Prop := (pc_hi p < pc_lo q \/ pc_hi q < pc_lo p)%N.

Lemma overlapping_false : forall l, lo_sorted l -> ForallOrdPairs piece_disj l ->
  Forall (fun p => (pc_lo p <= pc_hi p)%N) l -> overlapping l = false.
Proof.
  induction l as [|p l IH]; intros Hs Hd Hf; auto. destruct l as [|q l]; auto.
  destruct Hs as [H1 H2]. inversion Hd as [|? ? Hd1 Hd2]; subst. inversion Hf as [|? ? Hf1 Hf2]; subst.
  cbn [overlapping]. apply orb_false_iff. split; [|now apply IH].
  assert (A := H1 q (or_introl eq_refl)). inversion Hd1 as [|? ? B _]; subst. unfold piece_disj in B.
  inversion Hf2; subst. lia.
Qed.

Lemma FOP_perm : forall {A} (R : A -> A -> Prop), (forall x y, R x y -> R y x) ->
  forall l l', Permutation l l' -> ForallOrdPairs R l -> ForallOrdPairs R l'.
Proof.
  intros A R Hsym l l' HP. induction HP; intros H; auto.
  - inversion H; subst. constructor; auto. now apply Permutation_Forall with l.
  - inversion H as [|? ? H1 H2]; subst. inversion H2 as [|? ? H3 H4]; subst. inversion H1; subst.
    constructor; [constructor; auto|constructor; auto].
Qed.

Lemma FOP_app : forall {A} (R : A -> A -> Prop) l1 l2, ForallOrdPairs R l1 -> ForallOrdPairs R l2 ->
  (forall x y, In x l1 -> In y l2 -> R x y) -> ForallOrdPairs R (l1 ++ l2).
Proof.
  induction l1; simpl; intros l2 H1 H2 H3; auto. inversion H1; subst. constructor.
  - apply Forall_app. split; auto. apply Forall_forall. auto.
  - apply IHl1; auto.
Qed.

Lemma FOP_app_inv : forall {A} (R : A -> A -> Prop) l1 l2, ForallOrdPairs R (l1 ++ l2) ->
  ForallOrdPairs R l1 /\ ForallOrdPairs R l2 /\ (forall x y, In x l1 -> In y l2 -> R x y).
Proof.
  induction l1; simpl; intros l2 H.
  - repeat split; auto; [constructor|tauto].
  - inversion H as [|? ? H1 H2]; subst. destruct (IHl1 _ H2) as [A1 [A2 A3]]. apply Forall_app in H1. destruct H1 as [B1 B2].
    repeat split; auto.
    + constructor; auto.
    + intros x y [<-|Hx] Hy; auto. rewrite Forall_forall in B2. auto.
Qed.

Lemma decompose_in : forall q start ps p, decompose start q = Some ps -> In p ps ->
  In (pc_ids p) q /\ seg_range (pc_ids p) = Some (Some (pc_lo p, pc_hi p)).
Proof.
  induction q as [|s q IH]; intros start ps p H Hp; simpl in H.
  - injection H as <-. destruct Hp.
  - destruct (seg_range s) as [[[lo hi]|]|] eqn:E; try discriminate.
    + destruct (decompose _ q) eqn:E2; [|discriminate]. injection H as <-. destruct Hp as [<-|Hp].
      * split; [now left|auto].
      * destruct (IH _ _ _ E2 Hp). split; auto. now right.
    + destruct (IH _ _ _ H Hp). split; auto. now right.
Qed.

Lemma decompose_disj : forall q start ps, decompose start q = Some ps ->
  ForallOrdPairs seg_disjoint q -> ForallOrdPairs piece_disj ps.
Proof.
  induction q as [|s q IH]; intros start ps H Hd; simpl in H.
  - injection H as <-. constructor.
  - inversion Hd as [|? ? Hd1 Hd2]; subst. destruct (seg_range s) as [[[lo hi]|]|] eqn:E; try discriminate.
    + destruct (decompose _ q) eqn:E2; [|discriminate]. injection H as <-. constructor; [|eapply IH; eauto].
      apply Forall_forall. intros p Hp. destruct (decompose_in _ _ _ _ E2 Hp) as [A B].
      rewrite Forall_forall in Hd1. specialize (Hd1 _ A _ _ _ _ E B). exact Hd1.
    + eapply IH; eauto.
Qed.

Theorem index_new_succeeds : forall frags, Forall frag_ok frags ->
  ForallOrdPairs seg_disjoint (flat_map snd frags) -> exists idx, index_new frags = IOk idx.
Proof.
  intros frags Hf Hd. unfold index_new. destruct (index_new_total frags Hf) as [pss E]. rewrite E.
  assert (HD : ForallOrdPairs piece_disj (concat pss)).
  { clear Hf. revert pss E Hd. induction frags as [|[f q] frags IH]; intros pss E Hd; simpl in E.
    - injection E as <-. constructor.
    - destruct (decompose (addr_of f 0) q) as [ps|] eqn:E1; [|discriminate].
      destruct (sequence_opt _) as [pss'|] eqn:E2; [|discriminate]. injection E as <-.
      cbn [flat_map snd] in Hd. apply FOP_app_inv in Hd. destruct Hd as [D1 [D2 D3]].
      cbn [concat]. apply FOP_app.
      + eapply decompose_disj; eauto.
      + apply IH; auto.
      + intros x y Hx Hy. destruct (decompose_in _ _ _ _ E1 Hx) as [A1 A2].
        apply (in_concat_map _ _ E2) in Hy. destruct Hy as [f' [q' [ps' [B1 [B2 B3]]]]].
        destruct (decompose_in _ _ _ _ B2 B3) as [C1 C2].
        apply (D3 (pc_ids x) (pc_ids y)); auto. apply in_flat_map. exists (f', q'). auto. }
  assert (Eo : overlapping (sort_pieces (concat pss)) = false).
  { apply overlapping_false.
    - apply sort_pieces_sorted.
    - eapply FOP_perm; [|apply Permutation_sym, sort_pieces_perm|exact HD].
      unfold piece_disj. intros; tauto.
    - apply Forall_forall. intros p Hp. apply (Permutation_in _ (sort_pieces_perm _)) in Hp.
      apply (in_concat_map _ _ E) in Hp. destruct Hp as [f [q [ps [A [B C]]]]].
      destruct (decompose_in _ _ _ _ B C) as [D1 D2]. eapply seg_range_le; eauto.
      rewrite Forall_forall in Hf. destruct (Hf _ A) as [_ [W _]]. unfold seq_wf in W. rewrite Forall_forall in W. auto. }
  rewrite Eo. eauto.
Qed.

Example index_ex :
  match index_new [(10, [Range 0 10; Holes 10 17 (EU16 12 [0; 3]%N); Sorted (EU16 20 [0; 5; 10]%N)]);
             (20, [Arr (EU16 40 [0; 10; 20]%N)])]%N with
  | IOk idx => index_get idx 16 = Some (addr_of 10 14) /\ index_get idx 15 = None /\ index_get idx 60 = Some (addr_of 20 2)
  | _ => False end.
Proof. vm_compute. auto. Qed.

Example index_hyps_ex : Forall frag_ok [(10, [Range 0 10; Range 20 25]); (11, [Range 10 20])]%N /\
  ForallOrdPairs seg_disjoint (flat_map snd [(10, [Range 0 10; Range 20 25]); (11, [Range 10 20])]%N).
Proof.
  split.
  - assert (G : forall f a b, (f < two32)%N -> (a <= b)%N -> (b < two32)%N -> frag_ok (f, [Range a b])).
    { intros f a b H1 H2 H3. unfold frag_ok. cbn [fst snd seq_iter flat_map]. rewrite app_nil_r. cbn [seg_iter].
      split; [exact H1|]. split; [constructor; [cbn; unfold two64, two32, u64_max in *; lia|constructor]|].
      unfold range_list. split; [apply sinc_NoDup, nrange_sinc|]. rewrite nrange_length. lia. }
    constructor; [|constructor; [apply G; unfold two32; lia|constructor]].
    unfold frag_ok. cbn [fst snd]. split; [unfold two32; lia|].
    split; [constructor; [cbn; unfold two64; lia|constructor; [cbn; unfold two64; lia|constructor]]|].
    split; [|vm_compute; reflexivity]. change (NoDup (nrange 0 10 ++ nrange 20 5)).
    apply sinc_NoDup, sinc_app. split; [apply nrange_sinc|]. split; [apply nrange_sinc|]. intros x y Hx Hy. apply nrange_In in Hx, Hy. lia.
  - assert (G : forall a b c d, (b <= c)%N \/ (d <= a)%N -> seg_disjoint (Range a b) (Range c d)).
    { intros a b c d H. unfold seg_disjoint. cbn [seg_range]. intros lo hi lo' hi' H1 H2.
      destruct (a <? b)%N eqn:E1; [|discriminate]. destruct (c <? d)%N eqn:E2; [|discriminate].
      injection H1 as <- <-. injection H2 as <- <-. lia. }
    cbn [flat_map snd app].
    constructor; [constructor; [apply G; lia|constructor; [apply G; lia|constructor]]|].
    constructor; [constructor; [apply G; lia|constructor]|].
    constructor; [constructor|constructor].
Qed.

(* an index over distinct ids is refused when their ranges interleave *)
Lemma index_interleaved_refused : index_new [(1, [Arr (EU16 0 [0; 2]%N)]); (2, [Arr (EU16 1 [0; 2]%N)])]%N = IOverlap.
Proof. vm_compute. reflexivity. Qed.
