(* Proofs about OneFileModel: rows by index. *)
From Coq Require Import List Arith Bool Lia Permutation Sorted.
From Verif Require Import OneFileModel OneFileProofs.
Import ListNotations.
Local Open Scope nat_scope.

Lemma insert_perm : forall x l, Permutation (insert x l) (x :: l).
Proof.
  induction l as [|y l IH]; [reflexivity|]. cbn [insert]. destruct (x <=? y); [reflexivity|].
  rewrite IH. apply perm_swap.
Qed.
Lemma insert_sorted : forall x l, StronglySorted le l -> StronglySorted le (insert x l).
Proof.
  induction l as [|y l IH]; intros S; [repeat constructor|]. inversion S as [|? ? S' F]; subst.
  cbn [insert]. destruct (Nat.leb_spec x y) as [L|L].
  - constructor; [exact S|]. constructor; [exact L|]. eapply Forall_impl; [|exact F]. cbn. intros; lia.
  - constructor; [auto|]. rewrite Forall_forall in *. intros z Hz.
    apply (Permutation_in _ (insert_perm x l)) in Hz. destruct Hz as [<-|Hz]; [lia|auto].
Qed.
Lemma sort_perm : forall l, Permutation (sort l) l.
Proof. induction l as [|x l IH]; [reflexivity|]. cbn. rewrite insert_perm. now constructor. Qed.
Lemma sort_sorted : forall l, StronglySorted le (sort l).
Proof. induction l as [|x l IH]; [constructor|]. cbn. now apply insert_sorted. Qed.

Lemma sorted_app : forall (l r : list nat), StronglySorted le (l ++ r) ->
  StronglySorted le l /\ StronglySorted le r /\ (forall x y, In x l -> In y r -> x <= y).
Proof.
  induction l as [|a l IH]; intros r S; cbn in S.
  - repeat split; [constructor|exact S|intros ? ? []].
  - inversion S as [|? ? S' F]; subst. destruct (IH r S') as (S1 & S2 & S3). rewrite Forall_app in F. destruct F as [F1 F2].
    repeat split; [constructor; assumption|exact S2|]. intros x y [<-|Hx] Hy; [|auto]. rewrite Forall_forall in F2. auto.
Qed.

Section Take.
  Context {A : Type}.
  Implicit Types bs : list (list A).
  Definition at_ (bs : list (list A)) (b : nat) : nat := length (concat (firstn b bs)).

  Lemma advance_gen : forall (r : list (list A)) b n (i : nat), n <= i ->
    let b' := advance (tl (offs n r)) b i in
    b <= b' /\ b' - b <= length r /\ n + length (concat (firstn (b' - b) r)) <= i /\
    (b' - b < length r -> i < n + length (concat (firstn (S (b' - b)) r))).
  Proof.
    induction r as [|l r IH]; intros b n i H; cbn zeta.
    - cbn. rewrite Nat.sub_diag. cbn. lia.
    - cbn [offs tl].
      assert (O : offs (n + length l) r = (n + length l) :: tl (offs (n + length l) r)) by (destruct r; reflexivity).
      rewrite O. cbn [advance]. destruct (Nat.leb_spec (n + length l) i) as [L|L].
      + specialize (IH (S b) (n + length l) i L). cbn zeta in IH.
        set (b' := advance (tl (offs (n + length l) r)) (S b) i) in *. destruct IH as (I1 & I2 & I3 & I4).
        replace (b' - b) with (S (b' - S b)) by lia. cbn [firstn concat length]. rewrite app_length.
        repeat split; try lia. intros Q.
        assert (Q2 : b' - S b < length r) by lia. specialize (I4 Q2).
        cbn [firstn] in I4. rewrite app_length. lia.
      + rewrite Nat.sub_diag. cbn [firstn concat length]. rewrite app_nil_r. lia.
  Qed.

  Lemma firstn_plus : forall B k b (l : list B), firstn (b + k) l = firstn b l ++ firstn k (skipn b l).
  Proof.
    induction b as [|b IH]; intros l; [reflexivity|]. destruct l as [|x l]; [cbn; now rewrite !firstn_nil|].
    cbn. now rewrite IH.
  Qed.
  Lemma at_plus : forall bs b k, at_ bs (b + k) = at_ bs b + length (concat (firstn k (skipn b bs))).
  Proof. intros bs b k. unfold at_. now rewrite firstn_plus, concat_app, app_length. Qed.

  Lemma advance_right : forall bs b i, b <= length bs -> at_ bs b <= i ->
    let b' := advance (skipn (S b) (offs 0 bs)) b i in
    b <= b' <= length bs /\ at_ bs b' <= i /\ (b' < length bs -> i < at_ bs (S b')).
  Proof.
    intros bs b i Hb Hi. cbn zeta.
    assert (E : skipn (S b) (offs 0 bs) = tl (offs (at_ bs b) (skipn b bs))).
    { assert (Q := offs_skipn A b bs 0 Hb). cbn [Nat.add] in Q. fold (at_ bs b) in Q. rewrite <- Q.
      generalize (offs 0 bs). clear. induction b as [|b IH]; intros [|x l]; try reflexivity. cbn [skipn]. rewrite <- IH. reflexivity. }
    rewrite E. destruct (advance_gen (skipn b bs) b (at_ bs b) i Hi) as (I1 & I2 & I3 & I4). cbn zeta in *.
    set (b' := advance (tl (offs (at_ bs b) (skipn b bs))) b i) in *. rewrite skipn_length in *.
    assert (P1 := at_plus bs b (b' - b)). assert (P2 := at_plus bs b (S (b' - b))).
    replace (b + (b' - b)) with b' in P1 by lia. replace (b + S (b' - b)) with (S b') in P2 by lia.
    rewrite P1, P2. repeat split; try lia.
  Qed.

  (* one group: its indices lie in its batch, or behind the last *)
  Definition seg_ok bs (x : nat * list nat) : Prop :=
    snd x <> [] /\ fst x <= length bs /\ Forall (fun i => at_ bs (fst x) <= i /\ (fst x < length bs -> i < at_ bs (S (fst x)))) (snd x).

  Lemma entry_end : forall b i m, Forall (fun x => fst x <= b) m -> StronglySorted lt (map fst m) ->
    (exists m0 v, m = m0 ++ [(b, v)] /\ entry b i m = m0 ++ [(b, v ++ [i])]) \/
    (Forall (fun x => fst x < b) m /\ entry b i m = m ++ [(b, [i])]).
  Proof.
    induction m as [|(k, v) m IH]; intros F S.
    - right. split; [constructor|reflexivity].
    - inversion F as [|? ? F1 F2]; subst. cbn [map fst] in S, F1. inversion S as [|? ? S1 S2]; subst. cbn [entry].
      destruct (Nat.eqb_spec b k) as [->|N].
      + left. destruct m as [|(k', v') m].
        * exists [], v. split; reflexivity.
        * exfalso. inversion S2; subst. inversion F2; subst. cbn in *. lia.
      + destruct (Nat.ltb_spec b k) as [L|L]; [lia|].
        destruct (IH F2 S1) as [(m0 & v0 & -> & E)|(G & E)].
        * left. exists ((k, v) :: m0), v0. rewrite E. split; reflexivity.
        * right. split; [constructor; [cbn; lia|exact G]|]. rewrite E. reflexivity.
  Qed.

  Lemma sorted_lt_app : forall (l : list nat) x, StronglySorted lt l -> Forall (fun y => y < x) l -> StronglySorted lt (l ++ [x]).
  Proof.
    induction l as [|a l IH]; intros x S F; [repeat constructor|]. inversion S; subst. inversion F; subst. cbn.
    constructor; [auto|]. apply Forall_app. split; [assumption|]. repeat constructor. assumption.
  Qed.

  Definition inv bs (st : nat * list (nat * list nat)) (done : list nat) : Prop :=
    fst st <= length bs /\ (forall i, In i done -> at_ bs (fst st) <= i \/ True) /\
    Forall (fun x => fst x <= fst st) (snd st) /\ StronglySorted lt (map fst (snd st)) /\
    concat (map snd (snd st)) = done /\ Forall (seg_ok bs) (snd st).

  Lemma group_inv : forall bs p done st, StronglySorted le p -> inv bs st done -> (forall i, In i p -> at_ bs (fst st) <= i) ->
    inv bs (fold_left (group_step (offs 0 bs)) p st) (done ++ p).
  Proof.
    induction p as [|i p IH]; intros done st S I G; cbn [fold_left]; [now rewrite app_nil_r|].
    inversion S as [|? ? S1 S2]; subst.
    destruct st as [b m]. destruct I as (I1 & _ & I3 & I4 & I5 & I6). cbn [fst snd] in *.
    destruct (advance_right bs b i I1 (G i (or_introl eq_refl))) as (A1 & A2 & A3). cbn zeta in *.
    unfold group_step at 2. cbn [fst snd]. set (b' := advance (skipn (Datatypes.S b) (offs 0 bs)) b i) in *. clearbody b'.
    replace (done ++ i :: p) with ((done ++ [i]) ++ p) by (rewrite <- app_assoc; reflexivity).
    apply IH; [exact S1| |].
    - assert (F' : Forall (fun x => fst x <= b') m) by (eapply Forall_impl; [|exact I3]; cbv beta; intros; lia).
      unfold inv. cbn [fst snd]. split; [lia|]. split; [auto|].
      destruct (entry_end b' i m F' I4) as [(m0 & v & -> & E)|(L & E)]; rewrite E.
      + rewrite !map_app, concat_app in *. cbn [map concat fst snd] in *. rewrite app_nil_r in *.
        apply Forall_app in F'. apply Forall_app in I6. destruct F' as [F1 F2], I6 as [J1 J2].
        inversion J2 as [|? ? J3 _]; subst. destruct J3 as (K1 & K2 & K3). cbn [fst snd] in *.
        repeat split; try assumption.
        * apply Forall_app. split; [exact F1|]. repeat constructor.
        * now rewrite <- app_assoc.
        * apply Forall_app. split; [exact J1|]. constructor; [|constructor]. repeat split; cbn [fst snd]; [destruct v; discriminate|exact K2|].
          apply Forall_app. split; [exact K3|]. constructor; [split; assumption|constructor].
      + rewrite !map_app, concat_app. cbn [map concat fst snd]. repeat split.
        * apply Forall_app. split; [exact F'|]. repeat constructor.
        * apply sorted_lt_app; [exact I4|]. apply Forall_map. exact L.
        * now rewrite I5, app_nil_r.
        * apply Forall_app. split; [exact I6|]. constructor; [|constructor]. repeat split; cbn [fst snd]; [discriminate|lia|].
          constructor; [split; assumption|constructor].
    - cbn [fst]. intros j Hj. rewrite Forall_forall in S2. specialize (S2 j Hj). lia.
  Qed.

  Lemma group_right : forall bs idx, exists m, group (offs 0 bs) idx = m /\ concat (map snd m) = sort idx /\ Forall (seg_ok bs) m.
  Proof.
    intros bs idx. eexists. split; [reflexivity|]. unfold group.
    assert (I0 : inv bs (0, []) []).
    { unfold inv. cbn. repeat split; try lia; try constructor; auto; intros ? []. }
    assert (G := group_inv bs (sort idx) [] (0, []) (sort_sorted idx) I0 ltac:(intros; cbn; lia)).
    destruct G as (_ & _ & _ & _ & G1 & G2). split; assumption.
  Qed.

  Lemma concat_nth : forall b bs l i, nth_error bs b = Some l -> at_ bs b <= i -> i < at_ bs (S b) -> nth_error (concat bs) i = nth_error l (i - at_ bs b).
  Proof.
    induction b as [|b IH]; intros bs l i H L U; destruct bs as [|x r]; try discriminate.
    - cbn in H. injection H as ->. unfold at_ in *. cbn [firstn concat length] in *. rewrite app_nil_r in U.
      rewrite nth_error_app1 by exact U. now rewrite Nat.sub_0_r.
    - cbn in H. unfold at_ in *. change (firstn (S (S b)) (x :: r)) with (x :: firstn (S b) r) in U.
      change (firstn (S b) (x :: r)) with (x :: firstn b r) in L |- *. cbn [concat] in *. rewrite app_length in *.
      rewrite nth_error_app2 by lia. rewrite (IH r l (i - length x) H) by (unfold at_; lia). unfold at_. f_equal. lia.
  Qed.

  Lemma at_le : forall bs b, at_ bs b <= length (concat bs).
  Proof. intros bs b. unfold at_. rewrite <- (firstn_skipn b bs) at 2. rewrite concat_app, app_length. lia. Qed.

  Variable tk : nat -> list nat -> option (list A).

  Lemma take_batch_right : forall bs (dup : Prop) x, bs <> [] -> seg_ok bs x -> Forall (fun i => i < length (concat bs)) (snd x) -> StronglySorted le (snd x) ->
    (dup -> NoDup (snd x)) ->
    (forall b l offsets, nth_error bs b = Some l -> offsets <> [] -> StronglySorted le offsets -> (dup -> NoDup offsets) ->
       Forall (fun i => i < length l) offsets -> exists out, tk b offsets = Some out /\ map Some out = map (nth_error l) offsets) ->
    exists out, take_batch tk (offs 0 bs) x = Some out /\ map Some out = map (nth_error (concat bs)) (snd x).
  Proof.
    intros bs dup (b, is) NB (K1 & K2 & K3) F S D T. cbn [fst snd] in *.
    assert (B : b < length bs).
    { destruct (Nat.eq_dec b (length bs)) as [->|]; [|lia]. destruct is as [|i is]; [contradiction|].
      inversion K3 as [|? ? Q _]; subst. inversion F as [|? ? Q2 _]; subst. destruct Q as [Q _].
      unfold at_ in Q. rewrite firstn_all in Q. lia. }
    destruct (nth_error bs b) as [l|] eqn:El; [|apply nth_error_None in El; lia].
    unfold take_batch. cbn [fst snd]. rewrite offs_nth by lia. cbn [Nat.add]. fold (at_ bs b).
    assert (R : Forall (fun i => at_ bs b <= i /\ i < at_ bs (Datatypes.S b)) is) by (eapply Forall_impl; [|exact K3]; cbn; intros a (P & Q); auto).
    assert (LS : at_ bs (Datatypes.S b) = at_ bs b + length l) by (apply concat_firstn_S; exact El).
    assert (NBt : num_batches (offs 0 bs) = length bs).
    { unfold num_batches. assert (Q := offs_length A bs 0). destruct (offs 0 bs); cbn in *; lia. }
    rewrite NBt. destruct (Nat.leb_spec (length bs) b) as [Q|_]; [lia|].
    unfold file_len. rewrite offs_last. cbn [Nat.add].
    assert (OF : Forall (fun i => i < length l) (map (fun i => i - at_ bs b) is)).
    { apply Forall_map. eapply Forall_impl; [|exact R]. cbv beta. intros; lia. }
    assert (ON : map (fun i => i - at_ bs b) is <> []) by (destruct is; [contradiction|discriminate]).
    assert (LL : last (map (fun i => i - at_ bs b) is) 0 <= length (concat bs)).
    { assert (Q : In (last (map (fun i => i - at_ bs b) is) 0) (map (fun i => i - at_ bs b) is)).
      { revert ON. generalize (map (fun i => i - at_ bs b) is). clear. induction l as [|x [|y l] IH]; intros H; [contradiction|now left|].
        right. apply IH. discriminate. }
      rewrite Forall_forall in OF. apply OF in Q. assert (Z := at_le bs (Datatypes.S b)). lia. }
    destruct (Nat.ltb_spec (length (concat bs)) (last (map (fun i => i - at_ bs b) is) 0)) as [Q|_]; [lia|].
    destruct (T b l _ El ON) as (out & E1 & E2).
    - clear -S R. induction is as [|i is IH]; [constructor|]. inversion S as [|? ? S1 S2]; subst. inversion R; subst. cbn. constructor; [auto|].
      apply Forall_map. eapply Forall_impl; [|exact S2]. cbn. intros; lia.
    - intros d. specialize (D d). clear -D R. induction is as [|i is IH]; [constructor|]. inversion D as [|? ? D1 D2]; subst. inversion R as [|? ? R1 R2]; subst. cbn.
      constructor; [|auto]. intros Q. apply in_map_iff in Q. destruct Q as (j & Q & J). rewrite Forall_forall in R2. specialize (R2 j J).
      assert (i = j) by lia. subst. contradiction.
    - exact OF.
    - exists out. split; [exact E1|]. rewrite E2, map_map. apply map_ext_in. intros i Hi. rewrite Forall_forall in R. specialize (R i Hi).
      symmetry. apply concat_nth; [exact El|lia|lia].
  Qed.

  Lemma collect_right : forall B (f : B -> option (list A)) (g : B -> list nat) (rows : list A) l,
    Forall (fun x => exists out, f x = Some out /\ map Some out = map (nth_error rows) (g x)) l ->
    exists out, collect f l = Some out /\ map Some out = map (nth_error rows) (concat (map g l)).
  Proof.
    induction l as [|x l IH]; intros F; [exists []; split; reflexivity|]. inversion F as [|? ? (a & E1 & E2) F2]; subst.
    destruct (IH F2) as (b & E3 & E4). exists (a ++ b). cbn [collect map concat]. rewrite E1, E3. split; [reflexivity|].
    now rewrite !map_app, E2, E4.
  Qed.
  Lemma collect_none : forall B (f : B -> option (list A)) l x, In x l -> f x = None -> collect f l = None.
  Proof.
    induction l as [|y l IH]; intros x H E; [destruct H|]. destruct H as [->|H]; cbn [collect]; [now rewrite E|].
    rewrite (IH x H E). destruct (f y); reflexivity.
  Qed.

  Lemma segs_sorted : forall m : list (nat * list nat), StronglySorted le (concat (map snd m)) -> Forall (fun x => StronglySorted le (snd x)) m.
  Proof.
    induction m as [|x m IH]; intros S; [constructor|]. cbn in S. apply sorted_app in S. destruct S as (S1 & S2 & _).
    constructor; auto.
  Qed.
  Lemma segs_nodup : forall m : list (nat * list nat), NoDup (concat (map snd m)) -> Forall (fun x => NoDup (snd x)) m.
  Proof.
    induction m as [|x m IH]; intros S; [constructor|]. cbn in S. constructor.
    - clear IH. induction (snd x) as [|a l IH]; [constructor|]. cbn in S. inversion S; subst. constructor; [|auto].
      intros Q. apply H1. apply in_or_app. now left.
    - apply IH. induction (snd x) as [|a l IH2]; [exact S|]. cbn in S. inversion S; subst. auto.
  Qed.
  Lemma segs_in : forall (m : list (nat * list nat)) i, In i (concat (map snd m)) <-> exists x, In x m /\ In i (snd x).
  Proof. intros m i. rewrite in_concat. setoid_rewrite in_map_iff. split; [intros (l & (x & <- & H) & Q); eauto|intros (x & H & Q); exists (snd x); eauto]. Qed.
End Take.

Theorem take_right : forall A (tk : nat -> list nat -> option (list A)) (ws : list (list (list A))) indices,
  (forall b l offsets, nth_error (snd (write_file ws)) b = Some l -> offsets <> [] -> StronglySorted le offsets -> (NoDup indices -> NoDup offsets) ->
     Forall (fun i => i < length l) offsets -> exists out, tk b offsets = Some out /\ map Some out = map (nth_error l) offsets) ->
  let rows := concat (map (@concat A) ws) in
  (Forall (fun i => i < length rows) indices ->
     exists out sorted, take tk (fst (write_file ws)) indices = Some out /\
       Permutation sorted indices /\ StronglySorted le sorted /\ map Some out = map (nth_error rows) sorted) /\
  (forall i, In i indices -> length rows <= i -> take tk (fst (write_file ws)) indices = None).
Proof.
  intros A tk ws indices T rows. rewrite (write_file_is A ws) in *. cbn [fst snd] in *.
  unfold rows. rewrite <- (written_rows A ws). set (bs := written ws) in *. clearbody bs.
  unfold take. destruct bs as [|b0 r0] eqn:EB.
  - cbn [offsets_for concat length]. split.
    + intros F. destruct indices as [|i l]; [|inversion F; lia]. exists [], []. repeat split; constructor.
    + intros i Hi _. assert (Hs : In i (sort indices)) by (apply (Permutation_in _ (Permutation_sym (sort_perm indices))); exact Hi).
      unfold group. assert (G : forall p m, m <> [] \/ p <> [] -> Forall (fun x => fst x = 0) m -> exists x m', snd (fold_left (group_step []) p (0, m)) = x :: m' ).
      { induction p as [|j p IH]; intros m N F; cbn [fold_left snd].
        - destruct m as [|x m]; [destruct N; contradiction|eauto].
        - unfold group_step at 2. cbn [fst snd skipn advance]. apply IH.
          + left. destruct m as [|(k, v) m]; [discriminate|]. cbn. destruct k; discriminate.
          + clear -F. induction m as [|(k, v) m IHm]; cbn; [repeat constructor|]. inversion F; subst. cbn in *. subst. cbn. constructor; [reflexivity|assumption]. }
      destruct (G (sort indices) []) as (x & m' & E); [right; intros Q; rewrite Q in Hs; destruct Hs|constructor|].
      rewrite E. cbn [collect]. unfold take_batch. destruct x as [k v]. cbn [fst]. destruct k; reflexivity.
  - rewrite <- EB in *. assert (NB : bs <> []) by (rewrite EB; discriminate).
    replace (offsets_for bs) with (offs 0 bs) by (rewrite EB; reflexivity). clear EB.
    destruct (group_right bs indices) as (m & -> & G1 & G2).
    assert (SS := sort_sorted indices). assert (SP := sort_perm indices). split.
    + intros F. destruct (collect_right _ (take_batch tk (offs 0 bs)) snd (concat bs) m) as (out & E1 & E2).
      * assert (Q1 := segs_sorted m). rewrite G1 in Q1. specialize (Q1 SS).
        assert (Q2 : NoDup indices -> Forall (fun x => NoDup (snd x)) m).
        { intros N. apply segs_nodup. rewrite G1. exact (Permutation_NoDup (Permutation_sym SP) N). }
        rewrite Forall_forall in *. intros x Hx.
        apply (take_batch_right tk bs (NoDup indices) x NB (G2 x Hx)); [|exact (Q1 x Hx)| |exact T].
        -- rewrite Forall_forall. intros i Hi. apply F. apply (Permutation_in _ SP). rewrite <- G1. apply segs_in. eauto.
        -- intros N. specialize (Q2 N). auto.
      * exists out, (sort indices). rewrite G1 in E2. repeat split; assumption.
    + intros i Hi Li. apply (Permutation_in _ (Permutation_sym SP)) in Hi. rewrite <- G1 in Hi. apply segs_in in Hi. destruct Hi as (x & Hx & Hi).
      apply (collect_none _ _ m x Hx). rewrite Forall_forall in G2. destruct (G2 x Hx) as (_ & K2 & K3). rewrite Forall_forall in K3.
      destruct (K3 i Hi) as [_ K4]. assert (Z := at_le bs (Datatypes.S (fst x))).
      assert (E : fst x = length bs) by (destruct (Nat.eq_dec (fst x) (length bs)); [assumption|]; specialize (K4 ltac:(lia)); lia).
      unfold take_batch. destruct (nth_error (offs 0 bs) (fst x)); [|reflexivity].
      unfold num_batches. assert (Q := offs_length A bs 0). destruct (offs 0 bs) as [|y l]; [discriminate|].
      destruct (Nat.leb_spec (length (y :: l) - 1) (fst x)) as [|W]; [reflexivity|]. cbn [length] in *. lia.
Qed.

Theorem lengths_right : forall A (ws : list (list (list A))),
  num_batches (fst (write_file ws)) = length (snd (write_file ws)) /\
  file_len (fst (write_file ws)) = length (concat (map (@concat A) ws)) /\
  concat (snd (write_file ws)) = concat (map (@concat A) ws) /\
  (forall b, get_batch_length (fst (write_file ws)) b = option_map (@length A) (nth_error (snd (write_file ws)) b)).
Proof.
  intros A ws. rewrite (write_file_is A ws). cbn [fst snd]. rewrite <- (written_rows A ws). generalize (written ws) as bs. intros bs.
  assert (Q := offs_length A bs 0).
  split; [|split; [|split]].
  - unfold offsets_for. destruct bs as [|x r]; [reflexivity|]. unfold num_batches. cbn [offs length] in *. lia.
  - unfold offsets_for, file_len. destruct bs as [|x r]; [reflexivity|]. rewrite offs_last. reflexivity.
  - reflexivity.
  - intros b. unfold get_batch_length. destruct bs as [|x r] eqn:EB; [cbn; destruct b; reflexivity|].
    rewrite <- EB in *. replace (offsets_for bs) with (offs 0 bs) by (rewrite EB; reflexivity). clear EB.
    destruct (nth_error bs b) as [l|] eqn:E.
    + assert (b < length bs) by (apply nth_error_Some; congruence).
      rewrite Nat.add_1_r, !offs_nth by lia. cbn [option_map]. rewrite (concat_firstn_S A b bs l E). f_equal. lia.
    + apply nth_error_None in E. replace (nth_error (offs 0 bs) (b + 1)) with (@None nat); [reflexivity|].
      symmetry. apply nth_error_None. lia.
Qed.
