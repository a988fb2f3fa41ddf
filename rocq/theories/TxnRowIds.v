(* C39: stable row ids. *)
From Coq Require Import List Arith NArith ZArith Bool Lia Permutation.
From Coq Require Import ZifyBool ZifyN ZifyNat.
From Verif Require Import Lib AMap TreeMapModel SerdeModel TxnModel TxnSpec TxnLemmas TxnIdsProofs TxnFrame.
Import ListNotations.
Local Open Scope N_scope.

(* ---- what a rewrite leaves: the other fragments and the new ones ---- *)
Definition old_ids (groups : list rewrite_group) : list N := map f_id (flat_map rg_old groups).
Lemma with_ids_app : forall a b n, fst (fragments_with_ids (a ++ b) n) = fst (fragments_with_ids a n) ++ fst (fragments_with_ids b (snd (fragments_with_ids a n))).
Proof.
  induction a as [|f t IH]; intros b n; [reflexivity|]. cbn [app fragments_with_ids]. destruct (f_id f =? 0).
  - specialize (IH b (n + 1)). destruct (fragments_with_ids (t ++ b) (n + 1)), (fragments_with_ids t (n + 1)). cbn in *. now rewrite IH.
  - specialize (IH b n). destruct (fragments_with_ids (t ++ b) n), (fragments_with_ids t n). cbn in *. now rewrite IH.
Qed.
Lemma splice_filter : forall (fs run a b : list fragment) ids, fs = a ++ run ++ b -> map f_id run = ids -> NoDup (map f_id fs) ->
  filter (fun f => negb (memN (f_id f) ids)) fs = a ++ b.
Proof.
  intros fs run a b ids -> <- Hn. rewrite !map_app in Hn. apply NoDup_app_iff' in Hn as [N1 [N2 N3]]. apply NoDup_app_iff' in N2 as [N4 [N5 N6]].
  rewrite !filter_app. f_equal; [|replace (filter _ run) with (@nil fragment)]; cbn [app].
  - apply filter_all_true. intros f Hf. apply negb_true_iff, memN_false. intros C. apply (N3 (f_id f)); [now apply in_map|]. apply in_app_iff. now left.
  - apply filter_all_true. intros f Hf. apply negb_true_iff, memN_false. intros C. apply (N6 (f_id f)); auto. now apply in_map.
  - symmetry. apply filter_all_false. intros f Hf. apply negb_false_iff, memN_In. now apply in_map.
Qed.
Lemma filter_filter : forall {A} (p q : A -> bool) l, filter p (filter q l) = filter (fun x => q x && p x) l.
Proof. intros A p q. induction l as [|x t IH]; auto. cbn [filter]. destruct (q x); cbn [andb filter]; [destruct (p x); now rewrite IH|auto]. Qed.

Lemma Permutation_filter : forall {A} (p : A -> bool) a b, Permutation a b -> Permutation (filter p a) (filter p b).
Proof.
  intros A p a b H. induction H; cbn [filter]; auto.
  - destruct (p x); auto.
  - destruct (p x), (p y); auto. apply perm_swap.
  - etransitivity; eauto.
Qed.

Lemma rewrite_loop_perm : forall groups fs next fs' next', handle_rewrite_fragments fs groups next = BOk (fs', next') ->
  NoDup (map f_id fs) -> (forall f, In f fs -> f_id f < next) -> NoDup (explicit_ids (flat_map rg_new groups)) ->
  (forall i, In i (explicit_ids (flat_map rg_new groups)) -> i < next /\ ~ In i (map f_id fs)) ->
  (forall i, In i (old_ids groups) -> i < next /\ ~ In i (explicit_ids (flat_map rg_new groups))) ->
  Permutation fs' (filter (fun f => negb (memN (f_id f) (old_ids groups))) fs ++ fst (fragments_with_ids (flat_map rg_new groups) next)).
Proof.
  induction groups as [|g t IH]; intros fs next fs' next' H Hn Hl He Hx Ho; cbn [handle_rewrite_fragments] in H.
  - injection H as <- <-. cbn. rewrite app_nil_r. rewrite filter_all_true; auto.
  - destruct (rg_old g) as [|o0 olds] eqn:Eo; [discriminate|].
    destruct (position (fun f => f_id f =? f_id o0) fs) as [start|] eqn:Ep; [|discriminate].
    destruct (contiguous (skipn (S start) fs) olds) as [c|] eqn:Ec; [|discriminate].
    cbn [flat_map] in He, Hx, Ho. rewrite explicit_app in He, Hx, Ho. apply NoDup_app_iff' in He as [He1 [He2 He3]].
    pose proof (with_ids_next (rg_new g) next) as Hnx. pose proof (with_ids_In (rg_new g) next) as Hin.
    pose proof (with_ids_NoDup (rg_new g) next He1 (fun i Hi => proj1 (Hx i (proj2 (in_app_iff _ _ _) (or_introl Hi))))) as Hnd.
    cbn [flat_map]. rewrite with_ids_app.
    destruct (fragments_with_ids (rg_new g) next) as [new nx] eqn:Ew. cbn [fst snd] in *.
    set (fs2 := if c then _ else _) in H.
    assert (Hnew : forall i, In i (map f_id new) -> In i (explicit_ids (rg_new g)) \/ next <= i < nx).
    { intros i Hi. apply in_map_iff in Hi as [x [<- Hi]]. destruct (Hin x Hi) as [f [Hf [[C1 C2]|[C1 [j [C2 C3]]]]]]; subst x.
      - left. apply explicit_In. eauto.
      - right. cbn. lia. }
    assert (Hdisj : forall i, In i (map f_id fs) -> In i (map f_id new) -> False).
    { intros i H1 H2. destruct (Hnew i H2) as [C|C].
      - apply (proj2 (Hx i (proj2 (in_app_iff _ _ _) (or_introl C))) H1).
      - apply in_map_iff in H1 as [f [<- H1]]. specialize (Hl f H1). lia. }
    assert (Hp : Permutation fs2 (filter (fun f => negb (memN (f_id f) (map f_id (o0 :: olds)))) fs ++ new)).
    { unfold fs2. destruct c; [|apply Permutation_refl]. destruct (splice_run _ _ _ _ Ep Ec) as [run [R1 R2]].
      rewrite (splice_filter _ _ _ _ _ R1 R2 Hn). rewrite <- app_assoc. apply Permutation_app_head, Permutation_app_comm. }
    assert (D : NoDup (map f_id fs2) /\ forall i, In i (map f_id fs2) -> In i (map f_id fs) \/ In i (map f_id new)).
    { assert (I1 : forall i, In i (map f_id (filter (fun f => negb (memN (f_id f) (map f_id (o0 :: olds)))) fs)) -> In i (map f_id fs)).
      { intros i Hi. apply in_map_iff in Hi as [f [<- Hi]]. apply filter_In in Hi as [Hi _]. now apply in_map. }
      split.
      - eapply Permutation_NoDup; [apply Permutation_map, Permutation_sym, Hp|]. rewrite map_app. apply NoDup_app_iff'.
        split; [now apply NoDup_filter_ids|]. split; auto. intros i A1 A2. eauto.
      - intros i Hi. apply (Permutation_in i (Permutation_map f_id Hp)) in Hi. rewrite map_app in Hi. apply in_app_iff in Hi as [Hi|Hi]; auto. }
    destruct D as [D1 D2]. unfold old_ids in Ho |- *. cbn [flat_map] in Ho |- *. rewrite Eo in *. rewrite map_app in Ho |- *.
    rewrite (IH fs2 nx fs' next' H D1).
    + rewrite (Permutation_filter _ _ _ Hp), filter_app, filter_filter, <- app_assoc. apply Permutation_app.
      * match goal with |- Permutation ?a ?b => replace a with b; [apply Permutation_refl|] end.
        apply filter_ext. intros f. rewrite <- negb_orb. f_equal. unfold old_ids. destruct (memN (f_id f) (map f_id (o0 :: olds) ++ map f_id (flat_map rg_old t))) eqn:E1.
        -- apply memN_In, in_app_iff in E1 as [E1|E1]; apply memN_In in E1; rewrite E1; [reflexivity|]. symmetry. apply orb_true_r.
        -- symmetry. apply orb_false_iff. apply memN_false in E1. split; apply memN_false; intros C; apply E1, in_app_iff; auto.
      * apply Permutation_app_tail. rewrite filter_all_true; [reflexivity|]. intros f Hf. apply negb_true_iff, memN_false. intros C.
        destruct (Ho (f_id f) (proj2 (in_app_iff _ _ _) (or_intror C))) as [O1 O2].
        destruct (Hnew (f_id f) (in_map _ _ _ Hf)) as [C2|C2]; [|lia]. apply O2, in_app_iff. now left.
    + intros f Hf. destruct (D2 (f_id f) (in_map _ _ _ Hf)) as [C|C].
      * apply in_map_iff in C as [f' [E C]]. rewrite <- E. specialize (Hl f' C). lia.
      * destruct (Hnew _ C) as [C2|C2]; [|lia]. destruct (Hx (f_id f) (proj2 (in_app_iff _ _ _) (or_introl C2))). lia.
    + exact He2.
    + intros i Hi. destruct (Hx i (proj2 (in_app_iff _ _ _) (or_intror Hi))) as [X1 X2]. split; [lia|]. intros C.
      destruct (D2 i C) as [C2|C2]; auto. destruct (Hnew i C2) as [C3|C3]; [eauto|lia].
    + intros i Hi. destruct (Ho i (proj2 (in_app_iff _ _ _) (or_intror Hi))) as [O1 O2]. split; [lia|]. intros C. apply O2, in_app_iff. now right.
Qed.

(* ---- row ids ---- *)
Lemma ids_of_spec : forall f, ids_of f = frag_row_ids f.
Proof. reflexivity. Qed.
Lemma with_ids_rowids : forall l n, map f_rowids (fst (fragments_with_ids l n)) = map f_rowids l /\ map f_rows (fst (fragments_with_ids l n)) = map f_rows l.
Proof.
  induction l as [|f t IH]; intros n; [auto|]. cbn [fragments_with_ids]. destruct (f_id f =? 0).
  - specialize (IH (n + 1)). destruct (fragments_with_ids t (n + 1)). cbn in *. destruct IH as [-> ->]. auto.
  - specialize (IH n). destruct (fragments_with_ids t n). cbn in *. destruct IH as [-> ->]. auto.
Qed.
Lemma flat_rowids_map : forall a b, map f_rowids a = map f_rowids b -> flat_map frag_row_ids a = flat_map frag_row_ids b.
Proof.
  induction a as [|x a IH]; intros [|y b] H; try discriminate; auto. injection H as H1 H2. cbn [flat_map]. rewrite (IH b H2). f_equal.
  unfold frag_row_ids. now rewrite H1.
Qed.
Lemma no_rowids : forall l, Forall (fun f => f_rowids f = None) l -> flat_map frag_row_ids l = [].
Proof. induction l as [|f t IH]; intros H; auto. inversion H; subst. cbn [flat_map]. rewrite IH by auto. unfold frag_row_ids. now rewrite H2. Qed.

Lemma NoDup_flat : forall l, NoDup (map f_id l) ->
  (NoDup (flat_map frag_row_ids l) <->
   (forall f, In f l -> NoDup (frag_row_ids f)) /\ (forall f g x, In f l -> In g l -> f_id f <> f_id g -> In x (frag_row_ids f) -> In x (frag_row_ids g) -> False)).
Proof.
  induction l as [|f t IH]; intros Hn; cbn [flat_map].
  - split; [|constructor]. intros _. split; intros; contradiction.
  - inversion Hn; subst. rewrite NoDup_app_iff', (IH H2). split.
    + intros [H3 [[H4 H5] H6]]. split.
      * intros g [<-|Hg]; auto.
      * intros g k x [<-|Hg] [<-|Hk] Hd X1 X2; try congruence; eauto.
        -- apply (H6 x); auto. apply in_flat_map. eauto.
        -- apply (H6 x); auto. apply in_flat_map. eauto.
    + intros [H3 H4]. split; [apply H3; now left|]. split.
      * split; [intros g Hg; apply H3; now right|]. intros g k x Hg Hk. apply H4; now right.
      * intros x X1 X2. apply in_flat_map in X2 as [g [G1 G2]]. apply (H4 f g x); auto; [now left|now right|]. intros E. apply H1. rewrite E. now apply in_map.
Qed.
(* a list of fragments keeping the ids and row ids of others *)
Lemma keep_rowids : forall l l', NoDup (map f_id l) -> NoDup (flat_map frag_row_ids l) -> NoDup (map f_id l') ->
  (forall f', In f' l' -> exists f, In f l /\ f_id f = f_id f' /\ f_rowids f = f_rowids f') ->
  NoDup (flat_map frag_row_ids l') /\ forall x, In x (flat_map frag_row_ids l') -> In x (flat_map frag_row_ids l).
Proof.
  intros l l' H1 H2 H3 H4. apply (NoDup_flat l H1) in H2 as [A B]. split.
  - apply (NoDup_flat l' H3). split.
    + intros f' Hf. destruct (H4 f' Hf) as [f [F1 [F2 F3]]]. unfold frag_row_ids. rewrite <- F3. apply (A f F1).
    + intros f' g' x Hf Hg Hd X1 X2. destruct (H4 f' Hf) as [f [F1 [F2 F3]]]. destruct (H4 g' Hg) as [g [G1 [G2 G3]]].
      unfold frag_row_ids in X1, X2. rewrite <- F3 in X1. rewrite <- G3 in X2. apply (B f g x F1 G1); auto. congruence.
  - intros x Hx. apply in_flat_map in Hx as [f' [Hf X]]. destruct (H4 f' Hf) as [f [F1 [F2 F3]]]. apply in_flat_map. exists f. split; auto.
    unfold frag_row_ids in *. now rewrite F3.
Qed.

Definition rows_ok (m : manifest) : Prop := NoDup (row_ids m) /\ forall x, In x (row_ids m) -> x < m_next_row m.

Lemma new_rowids : forall nr l nid new nr', Forall (fun f => f_rowids f = None) l -> with_row_ids nr (fst (fragments_with_ids l nid)) = BOk (new, nr') ->
  match nr with
  | None => nr' = None /\ flat_map frag_row_ids new = []
  | Some n => exists n', nr' = Some n' /\ n <= n' /\ flat_map frag_row_ids new = nrange n (N.to_nat (n' - n)) /\
                         Forall (fun f => exists r k, f_rowids f = Some r /\ f_rows f = Some k /\ length r = N.to_nat k) new
  end.
Proof.
  intros [n|] l nid new nr' Hl H; cbn [with_row_ids] in H.
  - apply bbind_ok in H as [[a b] [H1 H2]]. injection H2 as <- <-. apply assign_spec in H1 as [_ [_ [_ [_ [H3 [H4 H5]]]]]]. eauto.
  - injection H as <- <-. split; auto. rewrite <- (no_rowids l Hl). apply flat_rowids_map. apply with_ids_rowids.
Qed.

(* the row ids after one commit, against the latest version *)
Definition op_rows_ok (o : op) (m : manifest) : Prop :=
  let keeps u := exists f, In f (m_fragments m) /\ f_id f = f_id u /\ f_rowids f = f_rowids u in
  match o with
  | Append l | Overwrite l _ _ => Forall (fun f => f_rowids f = None) l
  | Delete updated _ => Forall keeps updated
  | Update _ updated l => Forall keeps updated /\ Forall (fun f => f_rowids f = None) l
  | Merge l _ => Forall keeps l
  | Rewrite gs _ => Forall (fun g => Forall keeps (rg_old g)) gs /\ NoDup (flat_map frag_row_ids (flat_map rg_new gs)) /\
                    forall x, In x (flat_map frag_row_ids (flat_map rg_new gs)) -> In x (flat_map frag_row_ids (flat_map rg_old gs))
  | _ => True
  end.
Lemma update_frag_In : forall upd f, update_frag upd f = f \/ In (update_frag upd f) upd.
Proof.
  unfold update_frag. induction upd as [|u t IH]; intros f; auto. cbn [fold_left]. destruct (f_id u =? f_id f).
  - destruct (IH u) as [E|E]; [right; left; auto|right; right; auto].
  - destruct (IH f) as [E|E]; [left; auto|right; right; auto].
Qed.

Lemma apply_rows : forall o m sch ixs nr fs ixs' nr', man_wf m -> rows_ok m -> is_reset o = false -> op_ids_ok o m -> op_rows_ok o m ->
  apply_op o (Some m) sch ixs (next_id o (Some m)) nr = BOk (fs, ixs', nr') ->
  match nr with None => True | Some n => n = m_next_row m end ->
  exists old new, Permutation (flat_map frag_row_ids fs) (old ++ new) /\ NoDup old /\ (forall x, In x old -> In x (row_ids m)) /\
    match nr with
    | None => new = [] /\ nr' = None
    | Some n => exists n', nr' = Some n' /\ n <= n' /\ new = nrange n (N.to_nat (n' - n))
    end.
Proof.
  intros o m sch ixs nr fs ixs' nr' W [R1 R2] Hr Hids Hrows H Hnr.
  assert (ND : NoDup (map f_id (m_fragments m))) by apply sinc_NoDup, W.
  assert (NEW0 : match nr with None => @nil N = [] /\ nr = None | Some n => exists n', nr = Some n' /\ n <= n' /\ @nil N = nrange n (N.to_nat (n' - n)) end).
  { destruct nr as [n|]; auto. exists n. rewrite N.sub_diag. repeat split; auto. lia. }
  assert (NODUP : NoDup (map f_id fs)) by (eapply apply_op_ids; eauto).
  (* operations without new rows *)
  assert (Simple : nr' = nr -> (forall f', In f' fs -> exists f, In f (m_fragments m) /\ f_id f = f_id f' /\ f_rowids f = f_rowids f') ->
    exists old new, Permutation (flat_map frag_row_ids fs) (old ++ new) /\ NoDup old /\ (forall x, In x old -> In x (row_ids m)) /\
    match nr with None => new = [] /\ nr' = None | Some n => exists n', nr' = Some n' /\ n <= n' /\ new = nrange n (N.to_nat (n' - n)) end).
  { intros -> Hk. destruct (keep_rowids (m_fragments m) fs ND R1 NODUP Hk) as [K1 K2]. exists (flat_map frag_row_ids fs), []. rewrite app_nil_r. repeat split; auto. }
  (* operations adding rows to kept fragments *)
  assert (Adds : forall l base new, fs = base ++ new -> Forall (fun f => f_rowids f = None) l ->
    with_row_ids nr (fst (fragments_with_ids l (next_id o (Some m)))) = BOk (new, nr') ->
    (forall f', In f' base -> exists f, In f (m_fragments m) /\ f_id f = f_id f' /\ f_rowids f = f_rowids f') ->
    exists old new, Permutation (flat_map frag_row_ids fs) (old ++ new) /\ NoDup old /\ (forall x, In x old -> In x (row_ids m)) /\
    match nr with None => new = [] /\ nr' = None | Some n => exists n', nr' = Some n' /\ n <= n' /\ new = nrange n (N.to_nat (n' - n)) end).
  { intros l base new -> Hl Hw Hk. rewrite map_app in NODUP. apply NoDup_app_iff' in NODUP as [N1 _].
    destruct (keep_rowids (m_fragments m) base ND R1 N1 Hk) as [K1 K2]. exists (flat_map frag_row_ids base), (flat_map frag_row_ids new).
    rewrite flat_map_app. repeat split; auto. pose proof (new_rowids _ _ _ _ _ Hl Hw) as NR. destruct nr as [n|]; [|tauto].
    destruct NR as [n' [A [B [C _]]]]. eauto. }
  assert (Upd : forall removed updated, Forall (fun u => exists f, In f (m_fragments m) /\ f_id f = f_id u /\ f_rowids f = f_rowids u) updated ->
    forall f', In f' (kept removed updated (m_fragments m)) -> exists f, In f (m_fragments m) /\ f_id f = f_id f' /\ f_rowids f = f_rowids f').
  { intros removed updated Hu f' Hf. unfold kept in Hf. apply in_map_iff in Hf as [f [E Hf]]. apply filter_In in Hf as [Hf _].
    destruct (find _ updated) as [u|] eqn:Ef.
    - subst f'. apply find_some in Ef as [Ef _]. rewrite Forall_forall in Hu. now apply Hu.
    - subst f'. eauto. }
  destruct o; cbn [apply_op is_reset op_ids_ok op_rows_ok] in *; try discriminate.
  - apply bbind_ok in H as [[new nr0] [H1 H2]]. injection H2 as <- <- <-. eapply Adds; eauto.
  - injection H as <- <- <-. apply Simple; auto. intros f' Hf. apply in_map_iff in Hf as [f [E Hf]]. apply filter_In in Hf as [Hf _].
    destruct (update_frag_In updated f) as [E2|E2]; rewrite E in E2.
    + rewrite E2. eauto.
    + rewrite Forall_forall in Hrows. now apply Hrows.
  - injection H as <- <- <-. apply Simple; eauto.
  - apply bbind_ok in H as [[fs2 nx] [H1 H2]]. apply bbind_ok in H2 as [ix2 [H2 H3]]. injection H3 as <- <- <-.
    destruct Hids as [L1 L2]. destruct Hrows as [Q1 [Q2 Q3]].
    destruct (next_id_above (Rewrite groups rewritten) m W eq_refl) as [X1 [X2 _]].
    assert (Hold : forall x, In x (flat_map rg_old groups) -> exists f, In f (m_fragments m) /\ f_id f = f_id x /\ f_rowids f = f_rowids x).
    { intros x Hx. apply in_flat_map in Hx as [g [G1 G2]]. rewrite Forall_forall in Q1. specialize (Q1 g G1). rewrite Forall_forall in Q1. auto. }
    assert (P : Permutation fs2 (filter (fun f => negb (memN (f_id f) (old_ids groups))) (m_fragments m) ++ fst (fragments_with_ids (flat_map rg_new groups) (next_id (Rewrite groups rewritten) (Some m))))).
    { eapply rewrite_loop_perm; eauto.
      - intros f Hf. apply X1. now apply in_map.
      - intros i Hi. split; [apply X2; [now apply explicit_In in Hi|now apply L2]|now apply L2].
      - intros i Hi. unfold old_ids in Hi. apply in_map_iff in Hi as [x [<- Hx]]. destruct (Hold x Hx) as [f [F1 [F2 F3]]]. rewrite <- F2. split.
        + apply X1. now apply in_map.
        + intros C. apply (proj1 (L2 _ C)). now apply in_map. }
    exists (flat_map frag_row_ids fs2), []. rewrite app_nil_r. split; [apply Permutation_refl|]. split; [|split].
    + eapply Permutation_NoDup; [apply Permutation_sym, Permutation_flat_map, P|]. rewrite flat_map_app. apply NoDup_app_iff'.
      rewrite (flat_rowids_map _ _ (proj1 (with_ids_rowids (flat_map rg_new groups) _))). split; [|split; auto].
      * destruct (keep_rowids (m_fragments m) (filter (fun f => negb (memN (f_id f) (old_ids groups))) (m_fragments m)) ND R1) as [K _]; auto.
        -- now apply NoDup_filter_ids.
        -- intros f' Hf. apply filter_In in Hf as [Hf _]. eauto.
      * intros x A1 A2. apply Q3 in A2. apply in_flat_map in A1 as [f [F1 F2]]. apply filter_In in F1 as [F1 F3]. apply in_flat_map in A2 as [y [Y1 Y2]].
        destruct (Hold y Y1) as [g [G1 [G2 G3]]]. apply (NoDup_flat _ ND) in R1 as [_ B]. apply (B f g x); auto.
        -- apply negb_true_iff, memN_false in F3. intros E. apply F3. rewrite E, G2. unfold old_ids. now apply in_map.
        -- unfold frag_row_ids in *. now rewrite G3.
    + intros x Hx. apply (Permutation_in x (Permutation_flat_map frag_row_ids P)) in Hx. rewrite flat_map_app in Hx. apply in_app_iff in Hx as [Hx|Hx].
      * apply in_flat_map in Hx as [f [F1 F2]]. apply filter_In in F1 as [F1 _]. apply in_flat_map. eauto.
      * rewrite (flat_rowids_map _ _ (proj1 (with_ids_rowids (flat_map rg_new groups) _))) in Hx. apply Q3 in Hx. apply in_flat_map in Hx as [y [Y1 Y2]].
        destruct (Hold y Y1) as [g [G1 [G2 G3]]]. apply in_flat_map. exists g. split; auto. unfold frag_row_ids in *. now rewrite G3.
    + exact NEW0.
  - destruct (negb (same_fields replacements)); [discriminate|]. apply bbind_ok in H as [new [H1 H2]]. injection H2 as <- <- <-.
    apply Simple; auto. intros f' Hf. apply in_app_iff in Hf as [Hf|Hf].
    + clear - H1 Hf. revert new H1 Hf. induction replacements as [|[i nf] t IH]; intros l H Hf; cbn [replace_all] in H.
      * injection H as <-. destruct Hf.
      * destruct (find_fragment (m_fragments m) i) as [f|] eqn:E; [|discriminate]. apply bbind_ok in H as [f2 [H1 H]]. apply bbind_ok in H as [l' [H2 H]]. injection H as <-.
        destruct Hf as [<-|Hf]; [|eauto]. unfold find_fragment in E. apply find_some in E as [E1 E2]. exists f. split; auto.
        unfold replace_one in H1. destruct (list_eqb _ _ _); [discriminate|]. injection H1 as <-. auto.
    + apply filter_In in Hf as [Hf _]. eauto.
  - injection H as <- <- <-. apply Simple; auto. intros f' Hf. rewrite Forall_forall in Hrows. now apply Hrows.
  - injection H as <- <- <-. apply Simple; eauto.
  - apply bbind_ok in H as [[new nr0] [H1 H2]]. injection H2 as <- <- <-. destruct Hrows as [Q1 Q2]. eapply Adds; eauto.
  - injection H as <- <- <-. apply Simple; auto. intros f' Hf. apply in_map_iff in Hf as [f [<- Hf]]. exists f. auto.
  - injection H as <- <- <-. apply Simple; eauto.
Qed.

(* ---- histories ---- *)
Definition good_rows (h : list entry) : Prop := good h /\ all_entries rowids_honest h.
Lemma good_rows_prefix : forall h e, good_rows (h ++ [e]) -> good_rows h.
Proof. intros h e [H1 H2]. split; [eapply good_prefix; eauto|now apply all_snoc in H2]. Qed.

Lemma rows_honest : forall h e m, good_rows (h ++ [e]) -> latest h = Some m -> op_rows_ok (t_op (e_txn e)) m.
Proof.
  intros h e m [G Ga] El. apply all_snoc in Ga as [_ Hon]. pose proof (history_wf _ (good_prefix _ _ G)) as W. destruct G as [Gh _].
  pose proof Gh as Gh2. apply history_snoc in Gh as [Gh [Hr [Hc _]]].
  assert (Keep : row_op (t_op (e_txn e)) -> forall u, touches (t_op (e_txn e)) (f_id u) ->
     (exists m f, man_at h (t_read (e_txn e)) = Some m /\ In f (m_fragments m) /\ f_id f = f_id u /\ f_rowids f = f_rowids u) ->
     exists f, In f (m_fragments m) /\ f_id f = f_id u /\ f_rowids f = f_rowids u).
  { intros Hrow u Ht [m0 [f [M0 [F1 [F2 F3]]]]]. destruct (accepted_keeps h e m0 m Gh2 Hrow M0 El f F1) as [f' [P1 [[P2 [P3 [P4 _]]] _]]]; [now rewrite F2|].
    exists f'. split; auto. split; congruence. }
  unfold rowids_honest in Hon. unfold op_rows_ok. destruct (t_op (e_txn e)) eqn:Eo; auto.
  - rewrite Forall_forall in Hon |- *. intros u Hu. apply Keep; [exact I| |auto]. cbn. right. eauto.
  - destruct Hon as [H1 H2]. split; auto. rewrite Forall_forall in H1 |- *. intros g Hg. specialize (H1 g Hg). rewrite Forall_forall in H1 |- *.
    intros u Hu. apply Keep; [exact I| |auto]. cbn. eauto.
  - rewrite Forall_forall in Hon |- *. intros u Hu. destruct (Hon u Hu) as [m0 [f [M0 [F1 [F2 F3]]]]].
    assert (m_fragments m0 = m_fragments m) as Ef.
    { eapply (quiet_interval h); eauto. apply Forall_forall. intros x Hx. rewrite Forall_forall in Hc. specialize (Hc x Hx). cbn in Hc. destruct (t_op (e_txn x)); try discriminate; exact I. }
    rewrite Ef in F1. eauto.
  - destruct Hon as [H1 H2]. split; auto. rewrite Forall_forall in H1 |- *. intros u Hu. apply Keep; [exact I| |auto]. cbn. right. eauto.
Qed.

Lemma start_row : forall m c nr, start_next_row (Some m) c = BOk nr -> match nr with None => uses_stable m = false | Some n => n = m_next_row m /\ uses_stable m = true end.
Proof. intros m c nr H. unfold start_next_row in H. destruct (uses_stable m); [injection H as <-; auto|]. destruct (wc_stable c); [discriminate|]. now injection H as <-. Qed.

Lemma history_rows : forall h, good_rows h -> forall e, In e h -> rows_ok (e_man e).
Proof.
  induction h as [|e h IH] using rev_ind; intros G e' He; [destruct He|].
  specialize (IH (good_rows_prefix _ _ G)). apply in_app_iff in He as [He|[<-|[]]]; auto.
  pose proof (history_wf _ (proj1 (good_rows_prefix _ _ G))) as W. pose proof (fun m => op_honest h e m (proj1 G) W) as OI. pose proof (fun m => rows_honest h e m G) as OR.
  destruct G as [[Gh Ga] Gb]. apply all_snoc in Gb as [_ Hon]. apply history_snoc in Gh as [Gh [Hr [Hc [file Hb]]]].
  apply commit_inv in Hb as [[v [le [old [E1 [E2 [E3 [E4 E5]]]]]]]|[m0 [E1 [E2 E3]]]].
  - apply finish_inv in E5 as [F1 [_ [_ [F4 _]]]]. unfold rows_ok, row_ids. rewrite F1, F4. apply (IH old (version_In _ _ _ E3)).
  - destruct (build_inv _ _ _ _ _ _ _ E1) as [sch [nr [fs [nr' [B1 [B2 [B3 [B4 [B5 [B6 [B7 [_ [_ [B8 _]]]]]]]]]]]]]].
    apply finish_inv in E2 as [F1 [_ [_ [F4 _]]]]. unfold rows_ok, row_ids. rewrite F1, F4, B4, B8.
    assert (Hperm : Permutation (flat_map frag_row_ids (sort_frags fs)) (flat_map frag_row_ids fs)) by apply Permutation_flat_map, sort_frags_perm.
    assert (Hgoal : NoDup (flat_map frag_row_ids fs) /\ (forall x, In x (flat_map frag_row_ids fs) ->
        x < match nr' with Some n => n | None => match latest h with Some m => m_next_row m | None => 0 end end)).
    2:{ split; [eapply Permutation_NoDup; [apply Permutation_sym, Hperm|apply Hgoal]|]. intros x Hx. apply Hgoal. eapply Permutation_in; eauto. }
    assert (Hreset : forall l s u, t_op (e_txn e) = Overwrite l s u -> match nr with None => True | Some n => True end ->
      NoDup (flat_map frag_row_ids fs) /\ (forall x, In x (flat_map frag_row_ids fs) ->
        x < match nr' with Some n => n | None => match latest h with Some m => m_next_row m | None => 0 end end)).
    { intros l s u Eo _. rewrite Eo in B3. cbn [apply_op] in B3. apply bbind_ok in B3 as [[new nr0] [B31 B32]]. injection B32 as <- _ <-.
      unfold rowids_honest in Hon. rewrite Eo in Hon. apply new_rowids in B31; auto. destruct nr as [n|].
      - destruct B31 as [n' [-> [L1 [L2 _]]]]. rewrite L2. split; [apply sinc_NoDup, nrange_sinc|]. intros x Hx. apply nrange_In in Hx. lia.
      - destruct B31 as [-> ->]. split; [constructor|intros x []]. }
    destruct (latest h) as [m|] eqn:El.
    + destruct (latest_last _ _ El) as [le [El2 <-]]. pose proof (IH le (last_In _ _ El2)) as R. pose proof (W le (last_In _ _ El2)) as W1.
      destruct (is_reset (t_op (e_txn e))) eqn:Er.
      * destruct (t_op (e_txn e)) eqn:Eo; try discriminate. eapply Hreset; [reflexivity|]. destruct nr; exact I.
      * apply start_row in B2.
        destruct (apply_rows _ _ _ _ _ _ _ _ W1 R Er (OI _ eq_refl) (OR _ eq_refl) B3) as [old [new [P1 [P2 [P3 P4]]]]]; [destruct nr; tauto|].
        destruct R as [R1 R2]. destruct nr as [n|].
        -- destruct B2 as [B2 _]. destruct P4 as [n' [-> [L1 L2]]]. subst new n. split.
           ++ eapply Permutation_NoDup; [apply Permutation_sym, P1|]. apply NoDup_app_iff'. split; auto. split; [apply sinc_NoDup, nrange_sinc|].
              intros x A1 A2. apply P3, R2 in A1. apply nrange_In in A2. lia.
           ++ intros x Hx. apply (Permutation_in x P1) in Hx. apply in_app_iff in Hx as [Hx|Hx]; [apply P3, R2 in Hx; lia|apply nrange_In in Hx; lia].
        -- destruct P4 as [-> ->]. rewrite app_nil_r in P1. split; [eapply Permutation_NoDup; [apply Permutation_sym, P1|auto]|].
           intros x Hx. apply (Permutation_in x P1) in Hx. auto.
    + destruct (t_op (e_txn e)) eqn:Eo; cbn [apply_op] in B3; try discriminate.
      * eapply Hreset; [reflexivity|]. destruct nr; exact I.
      * unfold rowids_honest in Hon. rewrite Eo in Hon. injection B3 as <- _ <-. apply latest_None in El. subst h.
        destruct fragments as [|u t]; [split; [constructor|intros x []]|]. inversion Hon as [|u' t' [m1 [f [M1 _]]] _]; subst.
        unfold man_at, version_entry in M1. destruct (_ =? 0); [discriminate|]. destruct (N.to_nat _ - 1)%nat; discriminate.
Qed.

(* ids used in any earlier version are below the next id *)
Lemma row_used_below : forall h m, good_rows h -> no_restore h -> latest h = Some m -> forall x, row_used h x -> x < m_next_row m.
Proof.
  induction h as [|e h IH] using rev_ind; intros m G Hn Hm x U; [discriminate|]. rewrite latest_snoc in Hm. injection Hm as <-.
  destruct U as [e' [He Hi]]. pose proof (history_rows _ G) as R. apply in_app_iff in He as [He|[<-|[]]]; [|apply (R e); auto; apply in_app_iff; right; now left].
  assert (exists m1, latest h = Some m1) as [m1 Hm1]. { destruct (latest h) eqn:E; eauto. apply latest_None in E. subst h. destruct He. }
  assert (x < m_next_row m1). { eapply IH; eauto using good_rows_prefix. - intros y v Hy. apply Hn, in_app_iff. now left. - exists e'. auto. }
  pose proof (history_wf _ (proj1 (good_rows_prefix _ _ G))) as W. pose proof (fun m => op_honest h e m (proj1 G) W) as OI. pose proof (fun m => rows_honest h e m G) as OR.
  pose proof (history_rows _ (good_rows_prefix _ _ G)) as R0. destruct (latest_last _ _ Hm1) as [le [El2 <-]].
  destruct G as [[G _] Gb]. apply all_snoc in Gb as [_ Hon]. apply history_snoc in G as [_ [_ [_ [file G]]]]. apply commit_inv in G as [[v [le' [old [E1 _]]]]|[m0 [E1 [E2 E3]]]].
  - exfalso. eapply Hn; [|exact E1]. apply in_app_iff. right. now left.
  - apply build_inv in E1 as [sch [nr [fs [nr' [_ [B2 [B3 [_ [_ [_ [_ [_ [_ [B8 _]]]]]]]]]]]]]]. apply finish_inv in E2 as [_ [_ [_ [F4 _]]]].
    rewrite F4, B8. rewrite Hm1 in *. apply start_row in B2.
    destruct (is_reset (t_op (e_txn e))) eqn:Er.
    + destruct (t_op (e_txn e)) eqn:Eo; try discriminate. cbn [apply_op] in B3. apply bbind_ok in B3 as [[new nr0] [B31 B32]]. injection B32 as _ _ <-.
      unfold rowids_honest in Hon. rewrite Eo in Hon. apply new_rowids in B31; auto. destruct nr as [n|]; [destruct B31 as [n' [-> [L _]]]; lia|]. destruct B31 as [-> _]. lia.
    + destruct (apply_rows _ _ _ _ _ _ _ _ (W le (last_In _ _ El2)) (R0 le (last_In _ _ El2)) Er (OI _ eq_refl) (OR _ eq_refl) B3) as [o2 [n2 [_ [_ [_ P4]]]]]; [destruct nr; tauto|].
      destruct nr as [n|]; [destruct P4 as [n' [-> [L _]]]; lia|]. destruct P4 as [_ ->]. lia.
Qed.

(* every new row of a table with stable row ids gets a fresh id *)
Lemma new_rows_fresh : forall h e m, good_rows (h ++ [e]) -> latest h = Some m -> uses_stable m = true ->
  (match t_op (e_txn e) with Append _ | Overwrite _ _ _ | Update _ _ _ => True | _ => False end) ->
  exists l new, Permutation (m_fragments (e_man e)) (l ++ new) /\
    map f_rows new = map f_rows (new_fragments (t_op (e_txn e))) /\
    Forall (fun f => exists r k, f_rowids f = Some r /\ f_rows f = Some k /\ length r = N.to_nat k) new /\
    flat_map frag_row_ids new = nrange (m_next_row m) (N.to_nat (m_next_row (e_man e) - m_next_row m)) /\
    (no_restore h -> forall x, In x (flat_map frag_row_ids new) -> ~ row_used h x).
Proof.
  intros h e m G Hm Hs Hop. pose proof (row_used_below h m (good_rows_prefix _ _ G)) as Hbelow.
  destruct G as [[G _] Gb]. apply all_snoc in Gb as [_ Hon]. apply history_snoc in G as [_ [_ [_ [file G]]]]. apply commit_inv in G as [[v [le' [old [E1 _]]]]|[m0 [E1 [E2 E3]]]].
  - rewrite E1 in Hop. destruct Hop.
  - apply build_inv in E1 as [sch [nr [fs [nr' [_ [B2 [B3 [B4 [_ [_ [_ [_ [_ [B8 _]]]]]]]]]]]]]]. apply finish_inv in E2 as [F1 [_ [_ [F4 _]]]].
    rewrite F1, F4, B4, B8. rewrite Hm in *. apply start_row in B2. destruct nr as [n|]; [|congruence]. destruct B2 as [-> _].
    assert (X : exists l new, Permutation fs (l ++ new) /\ Forall (fun f => f_rowids f = None) (new_fragments (t_op (e_txn e))) /\
       exists nid, with_row_ids (Some (m_next_row m)) (fst (fragments_with_ids (new_fragments (t_op (e_txn e))) nid)) = BOk (new, nr')).
    { unfold rowids_honest in Hon. destruct (t_op (e_txn e)) eqn:Eo; try destruct Hop; cbn [apply_op TxnSpec.new_fragments] in *.
      - apply bbind_ok in B3 as [[new nr0] [H1 H2]]. injection H2 as <- _ <-. exists (m_fragments m), new. repeat split; eauto.
      - apply bbind_ok in B3 as [[new nr0] [H1 H2]]. injection H2 as <- _ <-. exists [], new. repeat split; eauto.
      - apply bbind_ok in B3 as [[new nr0] [H1 H2]]. injection H2 as <- _ <-. fold (kept removed updated (m_fragments m)). exists (kept removed updated (m_fragments m)), new.
        destruct Hon. repeat split; eauto. }
    destruct X as [l [new [P [Hnone [nid Hw]]]]]. exists l, new. split; [etransitivity; [apply sort_frags_perm|exact P]|].
    assert (map f_rows new = map f_rows (new_fragments (t_op (e_txn e)))) as Hrows.
    { cbn [with_row_ids] in Hw. apply bbind_ok in Hw as [[a b] [H1 H2]]. injection H2 as <- _. apply assign_spec in H1 as [_ [_ [_ [H1 _]]]]. rewrite H1. apply with_ids_rowids. }
    split; auto. destruct (new_rowids _ _ _ _ _ Hnone Hw) as [n' [-> [L1 [L2 L3]]]]. split; auto. split; auto. rewrite L2.
    intros Hn x Hx U. apply nrange_In in Hx. specialize (Hbelow Hn eq_refl x U). lia.
Qed.
