(* C23: writing back a column of a fragment with deletions. *)
From Coq Require Import List Arith NArith Bool Lia Permutation.
From Coq Require Import ZifyBool ZifyN ZifyNat.
From Verif Require Import Lib AMap RowIdsModel SerdeModel DeletionModel DeletionSpec DeletionProofs.
Import ListNotations.
Local Open Scope N_scope.

(* the column [out] holds, at each surviving physical offset, that row's value:
   [vals] are the new values of the surviving rows in order *)
Definition values_on_rows {A} (d : list N) (p : N) (vals out : list A) : Prop :=
  N.of_nat (length out) = p /\
  forall k m, nth_error (alive d p) k = Some m -> nth_error out (N.to_nat m) = nth_error vals k.

Lemma offsets_loop_spec : forall todo legacy first last num o r,
  sinc todo -> offsets_loop legacy first todo last num = (o, r) ->
  exists taken rem, todo = taken ++ rem /\ o = map (fun x => x - first) taken /\
    match r with Some (v, rest) => rem = v :: rest | None => rem = [] end /\
    (forall i x, nth_error taken i = Some x ->
       x <= last + N.of_nat i /\ (x = last + N.of_nat i -> is_full legacy (num + N.of_nat i) = false)) /\
    (forall v rest, rem = v :: rest -> let j := N.of_nat (length taken) in
       last + j < v \/ (v = last + j /\ is_full legacy (num + j) = true)).
Proof.
  induction todo as [|x todo IH]; intros legacy first last num o r S H; cbn [offsets_loop] in H.
  - injection H as <- <-. exists [], []. split; auto. split; auto. split; auto. split; [intros [|]; discriminate|discriminate].
  - destruct ((last <? x) || ((x =? last) && is_full legacy num)) eqn:E.
    + injection H as <- <-. exists [], (x :: todo). split; auto. split; auto. split; auto.
      split; [intros [|]; discriminate|]. intros v rest [= <- <-]. cbn. rewrite !N.add_0_r.
      apply orb_true_iff in E. destruct E as [E|E]; [lia|]. apply andb_true_iff in E. right. split; [lia|tauto].
    + destruct (offsets_loop legacy first todo (last + 1) (num + 1)) as [o' r'] eqn:E2. injection H as <- <-.
      destruct S as [S1 S2]. destruct (IH _ _ _ _ _ _ S2 E2) as [taken [rem [T1 [T2 [T3 [T4 T5]]]]]].
      exists (x :: taken), rem. split; [now rewrite T1|]. split; [cbn; now rewrite T2|]. split; auto. split.
      * intros [|i] y Hy; cbn in Hy.
        -- injection Hy as <-. apply orb_false_iff in E. destruct E as [Ea Eb]. split; [lia|].
           intros Hx. rewrite N.add_0_r in *. subst last. rewrite N.eqb_refl in Eb. exact Eb.
        -- specialize (T4 _ _ Hy). replace (last + N.of_nat (Datatypes.S i)) with (last + 1 + N.of_nat i) by lia.
           replace (num + N.of_nat (Datatypes.S i)) with (num + 1 + N.of_nat i) by lia. auto.
      * intros v rest Hr. specialize (T5 v rest Hr). cbn [length]. cbv zeta in *.
        replace (last + N.of_nat (Datatypes.S (length taken))) with (last + 1 + N.of_nat (length taken)) by lia.
        replace (num + N.of_nat (Datatypes.S (length taken))) with (num + 1 + N.of_nat (length taken)) by lia. auto.
Qed.

(* ---- add_blanks ---- *)
Lemma nrange_shift : forall m bp ni s, nrange (bp + s) m = map (fun q => bp + (q - ni)) (nrange (ni + s) m).
Proof. induction m; intros bp ni s; cbn [nrange map]; auto. f_equal; [lia|]. rewrite <- !N.add_assoc. apply IHm. Qed.
Lemma nrange_shift0 : forall m bp ni, nrange bp m = map (fun q => bp + (q - ni)) (nrange ni m).
Proof. intros. pose proof (nrange_shift m bp ni 0) as G. now rewrite !N.add_0_r in G. Qed.

Lemma selection_spec : forall offs bp ni n, sinc offs -> bp <= n ->
  (forall i o, nth_error offs i = Some o -> ni <= o /\ o <= ni + (n - bp) + N.of_nat i) ->
  selection offs bp ni n =
  map (fun q => if memN q offs then 0 else bp + (q - ni) - dead offs q)
      (nrange ni (N.to_nat (n - bp) + length offs)).
Proof.
  induction offs as [|o t IH]; intros bp ni n S Hb H; cbn [selection].
  - unfold nrng. cbn [length]. rewrite Nat.add_0_r. change (memN) with memN.
    rewrite (map_ext _ (fun q => bp + (q - ni))) by (intros q; change (dead [] q) with 0; cbn; lia).
    apply nrange_shift0.
  - destruct S as [S1 S2]. destruct (H O o eq_refl) as [H1 H2]. set (k := o - ni).
    assert (Ht : forall i x, nth_error t i = Some x -> o < x).
    { intros i x Hx. apply S1. eapply nth_error_In; eauto. }
    rewrite IH; auto; [|lia|].
    + replace (N.to_nat (n - bp) + length (o :: t))%nat
        with (N.to_nat k + (1 + (N.to_nat (n - (bp + k)) + length t)))%nat by (cbn [length]; lia).
      rewrite (nrange_app (N.to_nat k)), (map_app _ (nrange ni (N.to_nat k))). f_equal.
      * unfold nrng. replace (N.to_nat (bp + k - bp)) with (N.to_nat k) by lia.
        transitivity (map (fun q => bp + (q - ni)) (nrange ni (N.to_nat k))).
        -- apply nrange_shift0.
        -- apply map_ext_in. intros q Hq. apply nrange_In in Hq.
           replace (memN q (o :: t)) with false.
           ++ rewrite dead_none; [lia|]. intros x [->|Hx]; [lia|]. specialize (S1 _ Hx). lia.
           ++ symmetry. apply memN_false. intros [->|C]; [lia|]. specialize (S1 _ C). lia.
      * change (1 + (N.to_nat (n - (bp + k)) + length t))%nat with (Datatypes.S (N.to_nat (n - (bp + k)) + length t)).
        cbn [nrange map]. replace (ni + N.of_nat (N.to_nat k)) with o by lia. f_equal.
        -- replace (memN o (o :: t)) with true; [reflexivity|]. symmetry. apply memN_In. now left.
        -- apply map_ext_in. intros q Hq. apply nrange_In in Hq.
           assert (E : memN q (o :: t) = memN q t).
           { unfold memN. cbn [existsb]. replace (q =? o) with false by lia. reflexivity. }
           rewrite E. destruct (memN q t); auto.
           change (o :: t) with ([o] ++ t). rewrite dead_app, dead_one. replace (o <? q) with true by lia. lia.
    + intros i x Hx. destruct (H (Datatypes.S i) x Hx) as [H3 H4]. specialize (Ht _ _ Hx). lia.
Qed.

Lemma sequence_opt_map_nth : forall {A} (f : N -> option A) l r, sequence_opt (map f l) = Some r ->
  length r = length l /\ forall i x, nth_error l i = Some x -> nth_error r i = f x.
Proof.
  induction l as [|y l IH]; intros r H; cbn in H.
  - injection H as <-. split; auto. intros [|]; discriminate.
  - destruct (f y) eqn:E; [|discriminate]. destruct (sequence_opt (map f l)) eqn:E2; [|discriminate].
    injection H as <-. destruct (IH _ eq_refl) as [I1 I2]. split; [cbn; now rewrite I1|].
    intros [|i] x Hx; cbn in *; [now injection Hx as <-|auto].
Qed.
Lemma sequence_opt_map_total : forall {A} (f : N -> option A) l, (forall x, In x l -> f x <> None) ->
  exists r, sequence_opt (map f l) = Some r.
Proof.
  induction l as [|y l IH]; intros H; cbn; [eauto|].
  destruct (f y) eqn:E; [|exfalso; apply (H y); simpl; auto].
  destruct IH as [r Hr]; [intros; apply H; now right|]. rewrite Hr. eauto.
Qed.

(* offsets at which blanks go, within a batch of n rows *)
Definition offs_ok (n : N) (offs : list N) : Prop :=
  sinc offs /\ forall i o, nth_error offs i = Some o -> o <= n + N.of_nat i.

Lemma add_blanks_spec : forall {A} (batch : list A) offs,
  offs_ok (N.of_nat (length batch)) offs -> (batch <> [] \/ offs = []) ->
  exists out, add_blanks batch offs = Some out /\ length out = (length batch + length offs)%nat /\
    forall q, q < N.of_nat (length out) -> ~ In q offs ->
      nth_error out (N.to_nat q) = nth_error batch (N.to_nat (live offs q)).
Proof.
  intros A batch offs [S H] Hne. destruct offs as [|o t].
  - exists batch. split; auto. split; [cbn; lia|]. intros q _ _. f_equal. f_equal.
    pose proof (live_dead [] q (NoDup_nil _)). change (dead [] q) with 0 in *. lia.
  - assert (Hb : batch <> []) by (destruct Hne; [auto|discriminate]).
    set (offs := o :: t) in *. set (n := N.of_nat (length batch)) in *.
    assert (Hsel : selection offs 0 0 n = map (fun q => if memN q offs then 0 else 0 + (q - 0) - dead offs q)
                                           (nrange 0 (N.to_nat (n - 0) + length offs))).
    { apply selection_spec; auto; [lia|]. intros i x Hx. specialize (H i x Hx). lia. }
    pose proof (sinc_NoDup _ S) as ND.
    assert (Hall : forall x, In x offs -> x < n + N.of_nat (length offs)).
    { intros x Hx. apply In_nth_error in Hx. destruct Hx as [i Hi].
      assert (i < length offs)%nat by (apply nth_error_Some; congruence). specialize (H i x Hi). lia. }
    assert (Hlt : forall q, q < n + N.of_nat (length offs) -> ~ In q offs -> live offs q < n).
    { intros q Hq Hn. pose proof (live_dead offs (n + N.of_nat (length offs)) ND) as E. rewrite dead_all in E by auto.
      pose proof (live_mono offs (q + 1) (n + N.of_nat (length offs)) ltac:(lia)) as M.
      rewrite live_succ in M. apply memN_false in Hn. rewrite Hn in M. lia. }
    assert (Hn0 : 0 < n) by (destruct batch; [congruence|unfold n; cbn [length]; lia]).
    unfold add_blanks. unfold offs at 1.
    replace (length batch =? 0)%nat with false by lia. unfold take_rows. fold n. rewrite Hsel.
    rewrite map_map.
    destruct (sequence_opt_map_total (fun x => nth_error batch (N.to_nat (if memN x offs then 0 else 0 + (x - 0) - dead offs x)))
               (nrange 0 (N.to_nat (n - 0) + length offs))) as [out Hout].
    { intros x Hx. apply nrange_In in Hx. apply nth_error_Some. destruct (memN x offs) eqn:E; [lia|].
      apply memN_false in E. specialize (Hlt x ltac:(lia) E). pose proof (live_dead offs x ND). lia. }
    rewrite Hout. exists out. split; auto.
    destruct (sequence_opt_map_nth _ _ _ Hout) as [L1 L2]. rewrite nrange_length in L1.
    split; [lia|]. intros q Hq Hn. 
    assert (Hq' : nth_error (nrange 0 (N.to_nat (n - 0) + length offs)) (N.to_nat q) = Some q).
    { rewrite nrange_nth by lia. f_equal. lia. }
    rewrite (L2 _ _ Hq'). apply memN_false in Hn. rewrite Hn. do 2 f_equal.
    pose proof (live_dead offs q ND). lia.
Qed.

Lemma live_succ_bound : forall d a b, a <= b -> live d b <= live d a + (b - a).
Proof.
  intros d a b H. induction b using N.peano_ind; [replace a with 0 by lia; lia|].
  destruct (N.eq_dec a (N.succ b)); [subst; lia|]. rewrite <- N.add_1_r, live_succ. specialize (IHb ltac:(lia)).
  destruct (memN b d); lia.
Qed.

(* ---- one batch ---- *)
Definition rs_todo (r : restorer) : list N :=
  match rs_iter r with
  | None => []
  | Some it => match rs_last r with Some v => v :: it | None => it end
  end.
(* everything of d below the current row has been handled *)
Definition rs_inv (d : list N) (r : restorer) : Prop :=
  exists d0, d = d0 ++ rs_todo r /\ (forall x, In x d0 -> x < rs_cur r) /\ (forall x, In x (rs_todo r) -> rs_cur r <= x).

Lemma live_shift : forall d0 taken rem c q, sinc (d0 ++ taken ++ rem) -> (forall x, In x d0 -> x < c) ->
  (forall x, In x taken -> c <= x) -> (forall x, In x rem -> c + q <= x) ->
  live (d0 ++ taken ++ rem) (c + q) = live (d0 ++ taken ++ rem) c + live (map (fun x => x - c) taken) q.
Proof.
  intros d0 taken rem c q S H0 H1 H2. pose proof (sinc_NoDup _ S) as ND.
  assert (ND2 : NoDup (map (fun x => x - c) taken)).
  { apply sinc_app in S. destruct S as [_ [S _]]. apply sinc_app in S. destruct S as [S _]. apply sinc_NoDup.
    revert H1. clear - S. induction taken as [|x t IH]; simpl; intros H1; auto. destruct S as [S1 S2]. split; auto.
    intros y Hy. apply in_map_iff in Hy. destruct Hy as [z [<- Hz]]. specialize (S1 _ Hz).
    pose proof (H1 x (or_introl eq_refl)). pose proof (H1 z (or_intror Hz)). lia. }
  pose proof (live_dead _ (c + q) ND) as E1. pose proof (live_dead _ c ND) as E2. pose proof (live_dead _ q ND2) as E3.
  rewrite !dead_app in E1, E2.
  rewrite (dead_all d0 (c + q)) in E1 by (intros x Hx; specialize (H0 _ Hx); lia).
  rewrite (dead_all d0 c) in E2 by auto.
  rewrite (dead_none rem (c + q)) in E1 by auto.
  rewrite (dead_none rem c) in E2 by (intros x Hx; specialize (H2 _ Hx); lia).
  rewrite (dead_none taken c) in E2 by auto.
  assert (E4 : dead (map (fun x => x - c) taken) q = dead taken (c + q)).
  { unfold dead. f_equal. clear - H1. induction taken as [|x t IH]; simpl; auto.
    pose proof (H1 x (or_introl eq_refl)). replace (x - c <? q) with (x <? c + q) by lia.
    destruct (x <? c + q); simpl; rewrite IH; auto; intros; apply H1; now right. }
  lia.
Qed.

(* the window [rs_cur r, rs_cur r') written for one batch *)
Record step_ok {A} (d : list N) (r : restorer) (batch out : list A) (r' : restorer) : Prop := {
  st_inv : rs_inv d r';
  st_cur : rs_cur r' = rs_cur r + N.of_nat (length out);
  st_leg : rs_legacy r' = rs_legacy r;
  st_live : live d (rs_cur r') = live d (rs_cur r) + N.of_nat (length batch);
  st_vals : forall q, q < N.of_nat (length out) -> ~ In (rs_cur r + q) d ->
     nth_error out (N.to_nat q) = nth_error batch (N.to_nat (live d (rs_cur r + q) - live d (rs_cur r)));
  st_head : forall x, In x (rs_todo r') -> x = rs_cur r' -> is_full (rs_legacy r) (N.of_nat (length out)) = true;
  st_notfull : forall x, rs_cur r + N.of_nat (length batch) <= x < rs_cur r' -> In x d ->
     (forall y, x <= y < rs_cur r' -> In y d) ->
     is_full (rs_legacy r) (x - rs_cur r) = false;
  st_exh : rs_todo r' = [] -> rs_iter r' = None
}.

(* the offsets computed for a batch *)
Lemma batch_offsets_spec : forall d r n offs r1, sinc d -> rs_inv d r ->
  deleted_batch_offsets r n = (offs, r1) ->
  exists d0 taken rem, d = d0 ++ taken ++ rem /\ (forall x, In x d0 -> x < rs_cur r) /\
    (forall x, In x taken -> rs_cur r <= x) /\
    offs = map (fun x => x - rs_cur r) taken /\ rs_todo r1 = rem /\ rs_cur r1 = rs_cur r /\ rs_legacy r1 = rs_legacy r /\
    (forall i x, nth_error taken i = Some x -> x <= rs_cur r + n + N.of_nat i /\
       (x = rs_cur r + n + N.of_nat i -> is_full (rs_legacy r) (n + N.of_nat i) = false)) /\
    (forall x, In x rem -> rs_cur r + n + N.of_nat (length taken) <= x /\
       (x = rs_cur r + n + N.of_nat (length taken) -> is_full (rs_legacy r) (n + N.of_nat (length taken)) = true)) /\
    (rem = [] -> rs_iter r1 = None).
Proof.
  intros d r n offs r1 S [d0 [Hd [H0 H1]]] H. unfold deleted_batch_offsets in H.
  unfold rs_todo in Hd, H1 at 1. destruct (rs_iter r) as [it|] eqn:Ei.
  - set (todo := match rs_last r with Some v => v :: it | None => it end) in *.
    destruct (offsets_loop (rs_legacy r) (rs_cur r) todo (rs_cur r + n) n) as [o res] eqn:El.
    injection H as <- <-.
    assert (St : sinc todo) by (rewrite Hd in S; apply sinc_app in S; tauto).
    destruct (offsets_loop_spec _ _ _ _ _ _ _ St El) as [taken [rem [T1 [T2 [T3 [T4 T5]]]]]].
    exists d0, taken, rem. split; [now rewrite <- T1|]. split; auto.
    split; [intros x Hx; apply H1; rewrite T1; apply in_app_iff; auto|].
    split; auto. split; [unfold rs_todo; cbn; destruct res as [[v rest]|]; subst rem; reflexivity|].
    cbn. split; auto. split; auto. split; [exact T4|]. split.
    + intros x Hx. destruct rem as [|v rest]; [destruct Hx|]. specialize (T5 v rest eq_refl). cbv zeta in T5.
      rewrite T1 in St. apply sinc_app in St. destruct St as [_ [[Sv _] _]].
      destruct Hx as [->|Hx]; [intuition lia|]. specialize (Sv _ Hx). intuition lia.
    + intros ->. destruct res as [[v rest]|]; [discriminate|reflexivity].
  - injection H as <- <-. exists d0, [], []. rewrite !app_nil_r in *. split; auto. split; auto.
    split; [intros ? []|]. split; auto. split; [unfold rs_todo; now rewrite Ei|]. split; auto. split; auto.
    split; [intros [|]; discriminate|]. split; [intros ? []|]. auto.
Qed.

Definition rs_advance (r1 : restorer) (n : N) : restorer :=
  {| rs_cur := rs_cur r1 + n; rs_legacy := rs_legacy r1; rs_iter := rs_iter r1; rs_last := rs_last r1 |}.

Lemma restore_core : forall {A} d r (batch out' : list A) offs r1, sinc d -> rs_inv d r ->
  deleted_batch_offsets r (N.of_nat (length batch)) = (offs, r1) -> add_blanks batch offs = Some out' ->
  step_ok d r batch out' (rs_advance r1 (N.of_nat (length out'))).
Proof.
  intros A d r batch out' offs r1 S Hinv Eo Eb. unfold rs_advance.
  destruct (batch_offsets_spec d r _ _ _ S Hinv Eo)
    as [d0 [taken [rem [Hd [H0 [H1 [Ho [Htodo [Hcur [Hleg [Htk [Hrem Hex]]]]]]]]]]]].
  set (c := rs_cur r) in *. set (n := N.of_nat (length batch)) in *.
  assert (Soffs : offs_ok n offs).
  { subst offs. split.
    - rewrite Hd in S. apply sinc_app in S. destruct S as [_ [S _]]. apply sinc_app in S. destruct S as [S _].
      clear - S H1. induction taken as [|x t IH]; simpl; auto. destruct S as [S1 S2]. split; [|apply IH; auto; intros; apply H1; now right].
      intros y Hy. apply in_map_iff in Hy. destruct Hy as [z [<- Hz]]. specialize (S1 _ Hz).
      pose proof (H1 x (or_introl eq_refl)). pose proof (H1 z (or_intror Hz)). lia.
    - intros i o Hi. rewrite nth_error_map in Hi. destruct (nth_error taken i) as [x|] eqn:Ex; [|discriminate].
      injection Hi as <-. specialize (Htk i x Ex). lia. }
  assert (Hne : batch <> [] \/ offs = []).
  { destruct offs; auto. left. unfold add_blanks in Eb. destruct batch; [discriminate|congruence]. }
  destruct (add_blanks_spec batch offs Soffs Hne) as [out2 [E2 [L2 V2]]].
  rewrite Eb in E2. injection E2 as <-.
  assert (Lt : length offs = length taken) by (subst offs; apply map_length).
  assert (Hshift : forall q, q <= N.of_nat (length out') -> live d (c + q) = live d c + live offs q).
  { intros q Hq. rewrite Hd, Ho. apply live_shift; auto; [rewrite <- Hd; auto|].
    intros x Hx. specialize (Hrem x Hx). lia. }
  assert (Hin : forall q, q < N.of_nat (length out') -> (In (c + q) d <-> In q offs)).
  { intros q Hq. rewrite Hd, Ho, !in_app_iff, in_map_iff. split.
    - intros [C|[C|C]]; [specialize (H0 _ C); lia| |specialize (Hrem _ C); lia].
      exists (c + q). split; auto; lia.
    - intros [x [Ex Hx]]. right; left. specialize (H1 _ Hx). replace (c + q) with x by lia. auto. }
  assert (Htaken_lt : forall x, In x taken -> x < c + N.of_nat (length out')).
  { intros x Hx. apply In_nth_error in Hx. destruct Hx as [i Hi].
    assert (i < length taken)%nat by (apply nth_error_Some; congruence). specialize (Htk i x Hi). lia. }
  constructor; cbn.
  - exists (d0 ++ taken). unfold rs_todo. cbn. fold (rs_todo r1). rewrite Htodo, Hcur, <- app_assoc. split; auto. split.
    + intros x Hx. apply in_app_iff in Hx. destruct Hx as [Hx|Hx]; [specialize (H0 _ Hx); lia|auto].
    + intros x Hx. specialize (Hrem x Hx). lia.
  - rewrite Hcur. reflexivity.
  - auto.
  - rewrite Hcur. fold c. rewrite Hshift by lia. f_equal.
    pose proof (live_dead offs (N.of_nat (length out')) (sinc_NoDup _ (proj1 Soffs))) as E.
    rewrite dead_all in E; [lia|]. subst offs. intros x Hx. apply in_map_iff in Hx. destruct Hx as [y [<- Hy]].
    specialize (Htaken_lt _ Hy). specialize (H1 _ Hy). lia.
  - intros q Hq Hn. rewrite V2; auto; [|intros C; apply Hn, Hin; auto].
    fold c. rewrite Hshift by lia. f_equal. f_equal. lia.
  - unfold rs_todo. cbn. fold (rs_todo r1). rewrite Htodo. intros x Hx Hxe. destruct (Hrem x Hx) as [R1 R2].
    rewrite Hcur in Hxe. fold c in Hxe. replace (N.of_nat (length out')) with (n + N.of_nat (length taken)) by lia. apply R2. lia.
  - rewrite Hcur. fold c. intros x Hx Hxd Hall.
    (* x is taken at index x - c - n *)
    assert (Hxt : In x taken).
    { rewrite Hd, !in_app_iff in Hxd. destruct Hxd as [C|[C|C]]; auto; [specialize (H0 _ C); lia|specialize (Hrem _ C); lia]. }
    apply In_nth_error in Hxt. destruct Hxt as [i Hi].
    assert (Hi' : (i < length taken)%nat) by (apply nth_error_Some; congruence).
    destruct (Htk i x Hi) as [B1 B2].
    assert (Hxi : x = c + n + N.of_nat i).
    { (* all of x .. end are taken, so at least (end - x) elements from index i on *)
      assert (Hsub : incl (nrange x (N.to_nat (c + N.of_nat (length out') - x))) (skipn i taken)).
      { intros y Hy. apply nrange_In in Hy. assert (In y d) as Hyd by (apply Hall; lia).
        assert (In y taken) as Hyt.
        { rewrite Hd, !in_app_iff in Hyd. destruct Hyd as [C|[C|C]]; auto; [specialize (H0 _ C); lia|specialize (Hrem _ C); lia]. }
        rewrite <- (firstn_skipn i taken) in Hyt. apply in_app_iff in Hyt. destruct Hyt as [C|C]; auto. exfalso.
        (* before index i elements are < x *)
        rewrite Hd in S. apply sinc_app in S. destruct S as [_ [S _]]. apply sinc_app in S. destruct S as [S _].
        rewrite <- (firstn_skipn i taken) in S. apply sinc_app in S. destruct S as [_ [_ S]].
        assert (In x (skipn i taken)).
        { clear - Hi. revert i Hi. induction taken; intros [|i] Hi; simpl in *; try discriminate.
          - injection Hi as ->. now left.
          - auto. }
        specialize (S y x C H). lia. }
      apply NoDup_incl_length in Hsub; [|apply sinc_NoDup, nrange_sinc].
      rewrite nrange_length, skipn_length in Hsub. lia. }
    replace (x - c) with (n + N.of_nat i) by lia. apply B2. exact Hxi.
  - unfold rs_todo. cbn. fold (rs_todo r1). rewrite Htodo. auto.
Qed.

Lemma restore_step : forall {A} d r (batch out : list A) r', sinc d -> rs_inv d r ->
  restore r batch = Some (out, r') -> step_ok d r batch out r'.
Proof.
  intros A d r batch out r' S Hinv H. unfold restore in H.
  destruct (deleted_batch_offsets r (N.of_nat (length batch))) as [offs r1] eqn:Eo.
  destruct (add_blanks batch offs) as [out'|] eqn:Eb; [|discriminate].
  destruct (match rs_legacy r1 with Some b => _ | None => false end); [discriminate|]. injection H as <- <-.
  exact (restore_core d r batch out' offs r1 S Hinv Eo Eb).
Qed.

Lemma todo_in : forall d r x, rs_inv d r -> rs_cur r <= x -> In x d -> In x (rs_todo r).
Proof.
  intros d r x [d0 [E [H0 H1]]] L H. rewrite E in H. apply in_app_iff in H. destruct H as [H|H]; auto.
  specialize (H0 _ H). lia.
Qed.

Lemma run_sound : forall {A} (batches : list (list A)) d p r out, sinc d -> (forall x, In x d -> x < p) -> rs_inv d r ->
  run_updater r batches = Some out -> live d (rs_cur r) + N.of_nat (length (concat batches)) = live d p ->
  rs_cur r + N.of_nat (length out) = p /\
  forall q, q < N.of_nat (length out) -> ~ In (rs_cur r + q) d ->
    nth_error out (N.to_nat q) = nth_error (concat batches) (N.to_nat (live d (rs_cur r + q) - live d (rs_cur r))).
Proof.
  intros A. induction batches as [|b t IH]; intros d p r out S Hp Hinv H Hl.
  - cbn in H. destruct (rs_exhausted r) eqn:E; [|discriminate]. injection H as <-.
    split; [|intros q Hq; cbn in Hq; lia].
    assert (Hc : forall x, In x d -> x < rs_cur r).
    { intros x Hx. destruct (N.le_gt_cases (rs_cur r) x); auto.
      pose proof (todo_in d r x Hinv H Hx) as T. unfold rs_todo in T. unfold rs_exhausted in E.
      destruct (rs_iter r); [discriminate|destruct T]. }
    pose proof (live_dead d (rs_cur r) (sinc_NoDup _ S)) as E1. rewrite dead_all in E1 by auto.
    pose proof (live_dead d p (sinc_NoDup _ S)) as E2. rewrite dead_all in E2 by auto. cbn in *. lia.
  - cbn [run_updater] in H. destruct (restore r b) as [[out1 r']|] eqn:Er; [|discriminate].
    destruct (run_updater r' t) as [out2|] eqn:Et; [|discriminate]. injection H as <-.
    destruct (restore_step d r b out1 r' S Hinv Er) as [I1 I2 I3 I4 I5 I6 I7 I8].
    cbn [concat] in *. rewrite app_length in Hl.
    destruct (IH d p r' out2 S Hp I1 Et ltac:(lia)) as [J1 J2].
    rewrite app_length. split; [lia|]. intros q Hq Hn.
    destruct (N.lt_ge_cases q (N.of_nat (length out1))) as [L|L].
    + rewrite nth_error_app1 by lia. rewrite I5 by auto. symmetry. apply nth_error_app1.
      pose proof (live_mono d (rs_cur r + q + 1) (rs_cur r') ltac:(lia)) as M. rewrite live_succ in M.
      pose proof (live_mono d (rs_cur r) (rs_cur r + q) ltac:(lia)) as M0.
      apply memN_false in Hn. rewrite Hn in M. lia.
    + rewrite nth_error_app2 by lia. specialize (J2 (q - N.of_nat (length out1)) ltac:(lia)).
      replace (rs_cur r' + (q - N.of_nat (length out1))) with (rs_cur r + q) in J2 by lia.
      replace (N.to_nat q - length out1)%nat with (N.to_nat (q - N.of_nat (length out1))) by lia.
      rewrite J2 by auto. pose proof (live_mono d (rs_cur r') (rs_cur r + q) ltac:(lia)).
      rewrite nth_error_app2 by lia. f_equal. lia.
Qed.

Lemma alive_ext : forall d1 d2 n, (forall x, In x d1 <-> In x d2) -> alive d1 n = alive d2 n.
Proof.
  intros d1 d2 n H. unfold alive. apply filter_ext. intros x. f_equal.
  destruct (memN x d2) eqn:E; [apply memN_In, H, memN_In; auto|].
  apply memN_false. intros C. apply H in C. apply memN_false in E. auto.
Qed.

Lemma rs_new_inv : forall d legacy, rs_inv (dv_sorted_iter d) (rs_new d legacy).
Proof. intros. exists []. unfold rs_todo, rs_new; cbn. split; auto. split; [intros ? []|]. intros; lia. Qed.

(* whenever the update goes through, every value is on its row *)
Theorem updater_sound : forall {A} d legacy p (batches : list (list A)) out, dv_wf d -> (forall x, dv_has d x -> x < p) ->
  length (concat batches) = length (alive (dv_items d) p) ->
  run_updater (rs_new d legacy) batches = Some out ->
  values_on_rows (dv_items d) p (concat batches) out.
Proof.
  intros A d legacy p batches out W Hp Hlen H. destruct (sorted_iter_spec d W) as [S [I L]].
  rewrite (alive_ext _ (dv_sorted_iter d)) in Hlen by (intros; symmetry; apply I).
  destruct (run_sound batches (dv_sorted_iter d) p (rs_new d legacy) out S) as [J1 J2]; auto.
  - intros x Hx. apply Hp, I, Hx.
  - apply rs_new_inv.
  - cbn [rs_new rs_cur]. change (live (dv_sorted_iter d) 0) with 0. unfold live. lia.
  - cbn [rs_new rs_cur] in *. split; [lia|]. intros k m Hk.
    rewrite (alive_ext _ (dv_sorted_iter d)) in Hk by (intros; symmetry; apply I).
    apply kth_nth in Hk. destruct Hk as [K1 [K2 K3]]. specialize (J2 m ltac:(lia)). rewrite N.add_0_l in J2.
    rewrite J2 by auto. f_equal. change (live (dv_sorted_iter d) 0) with 0. lia.
Qed.

(* ---- when does it go through ---- *)
Lemma offs_head : forall d r n offs r1, sinc d -> rs_inv d r -> ~ In (rs_cur r) d ->
  deleted_batch_offsets r n = (offs, r1) -> n = 0 -> offs = [].
Proof.
  intros d r n offs r1 S Hi Hn E ->.
  destruct (batch_offsets_spec d r _ _ _ S Hi E)
    as [d0 [taken [rem [Hd [H0 [H1 [Ho [Htodo [Hcur [Hleg [Htk [Hrem Hex]]]]]]]]]]]].
  destruct taken as [|x t]; auto. exfalso. apply Hn. destruct (Htk O x eq_refl) as [B _].
  specialize (H1 x (or_introl eq_refl)). replace (rs_cur r) with x by lia.
  rewrite Hd. apply in_app_iff. right. now left.
Qed.
Lemma blanks_total : forall {A} d r (batch : list A) offs r1, sinc d -> rs_inv d r ->
  (batch <> [] \/ ~ In (rs_cur r) d) ->
  deleted_batch_offsets r (N.of_nat (length batch)) = (offs, r1) ->
  exists out, add_blanks batch offs = Some out.
Proof.
  intros A d r batch offs r1 S Hi Hne E.
  destruct (batch_offsets_spec d r _ _ _ S Hi E)
    as [d0 [taken [rem [Hd [H0 [H1 [Ho [Htodo [Hcur [Hleg [Htk [Hrem Hex]]]]]]]]]]]].
  destruct (add_blanks_spec batch offs) as [out [E1 _]]; eauto.
  - subst offs. split.
    + rewrite Hd in S. apply sinc_app in S. destruct S as [_ [S _]]. apply sinc_app in S. destruct S as [S _].
      clear - S H1. induction taken as [|x t IH]; simpl; auto. destruct S as [S1 S2]. split; [|apply IH; auto; intros; apply H1; now right].
      intros y Hy. apply in_map_iff in Hy. destruct Hy as [z [<- Hz]]. specialize (S1 _ Hz).
      pose proof (H1 x (or_introl eq_refl)). pose proof (H1 z (or_intror Hz)). lia.
    + intros i o Hi'. rewrite nth_error_map in Hi'. destruct (nth_error taken i) as [x|] eqn:Ex; [|discriminate].
      injection Hi' as <-. specialize (Htk i x Ex). lia.
  - destruct batch as [|a b]; [|left; discriminate]. right. destruct Hne as [Hne|Hne]; [congruence|].
    eapply offs_head; eauto.
Qed.

Lemma live_same_inv : forall d n m, n <= m -> live d m = live d n -> forall x, n <= x < m -> In x d.
Proof.
  intros d n m L E x Hx. destruct (in_dec N.eq_dec x d) as [i|i]; auto. exfalso.
  pose proof (live_mono d (x + 1) m ltac:(lia)) as M1. pose proof (live_mono d n x ltac:(lia)) as M2.
  rewrite live_succ in M1. apply memN_false in i. rewrite i in M1. lia.
Qed.

(* files without a fixed batch size *)
Lemma run_complete : forall {A} (batches : list (list A)) d p r, sinc d -> (forall x, In x d -> x < p) -> rs_inv d r ->
  rs_legacy r = None -> (rs_todo r = [] -> rs_iter r = None) -> ~ In (rs_cur r) d ->
  live d (rs_cur r) + N.of_nat (length (concat batches)) = live d p ->
  exists out, run_updater r batches = Some out.
Proof.
  intros A. induction batches as [|b t IH]; intros d p r S Hp Hi Hl Hx Hn Hlen; cbn [run_updater].
  - unfold rs_exhausted. rewrite Hx; eauto. cbn in Hlen. rewrite N.add_0_r in Hlen.
    destruct (rs_todo r) as [|v todo] eqn:Et; auto. exfalso.
    destruct Hi as [d0 [E [H0 H1]]]. rewrite Et in E, H1.
    assert (Hv : In v d) by (rewrite E; apply in_app_iff; right; now left).
    specialize (H1 v (or_introl eq_refl)). specialize (Hp v Hv).
    apply Hn. apply (live_same_inv d (rs_cur r) p ltac:(lia) (eq_sym Hlen)). lia.
  - destruct (deleted_batch_offsets r (N.of_nat (length b))) as [offs r1] eqn:Eo.
    destruct (blanks_total d r b offs r1 S Hi (or_intror Hn) Eo) as [out Eb].
    destruct (restore_core d r b out offs r1 S Hi Eo Eb) as [I1 I2 I3 I4 I5 I6 I7 I8].
    assert (Er : restore r b = Some (out, rs_advance r1 (N.of_nat (length out)))).
    { unfold restore. rewrite Eo, Eb. cbn in I3. rewrite I3, Hl. unfold rs_advance. now rewrite I3, Hl. }
    rewrite Er. destruct (IH d p (rs_advance r1 (N.of_nat (length out))) S Hp I1) as [o2 E2]; auto.
    + congruence.
    + intros C. specialize (I6 _ (todo_in _ _ _ I1 (N.le_refl _) C) eq_refl). rewrite Hl in I6. discriminate.
    + cbn [concat] in Hlen. rewrite app_length in Hlen. lia.
    + rewrite E2. cbn. eauto.
Qed.

Theorem updater_complete : forall {A} d p (b : list A) (batches : list (list A)), dv_wf d -> (forall x, dv_has d x -> x < p) ->
  length (concat (b :: batches)) = length (alive (dv_items d) p) ->
  ((exists out, run_updater (rs_new d None) (b :: batches) = Some out) <-> (b <> [] \/ ~ dv_has d 0)).
Proof.
  intros A d p b batches W Hp Hlen. destruct (sorted_iter_spec d W) as [S [I L]].
  rewrite (alive_ext _ (dv_sorted_iter d)) in Hlen by (intros; symmetry; apply I).
  pose proof (rs_new_inv d None) as Hi. set (r := rs_new d None) in *. set (dl := dv_sorted_iter d) in *.
  destruct (deleted_batch_offsets r (N.of_nat (length b))) as [offs r1] eqn:Eo.
  split.
  - intros [out H]. destruct b as [|a b]; [right|left; discriminate]. intros C. apply I in C.
    cbn [run_updater] in H. unfold restore in H. rewrite Eo in H.
    destruct (batch_offsets_spec dl r _ _ _ S Hi Eo)
      as [d0 [taken [rem [Hd [H0 [H1 [Ho [Htodo [Hcur [Hleg [Htk [Hrem Hex]]]]]]]]]]]].
    assert (In 0 taken).
    { fold dl in C. rewrite Hd, !in_app_iff in C. destruct C as [C|[C|C]]; auto; [specialize (H0 _ C); cbn in H0; lia|].
      exfalso. destruct (Hrem _ C) as [R1 R2]. cbn in R1, R2. discriminate R2. lia. }
    destruct taken; [destruct H2|]. rewrite Ho in H. cbn in H. discriminate.
  - intros Hne. assert (Hne' : b <> [] \/ ~ In (rs_cur r) dl).
    { destruct Hne as [?|Hne]; auto. right. intros C. apply Hne, I. exact C. }
    destruct (blanks_total dl r b offs r1 S Hi Hne' Eo) as [out Eb].
    destruct (restore_core dl r b out offs r1 S Hi Eo Eb) as [I1 I2 I3 I4 I5 I6 I7 I8].
    assert (Er : restore r b = Some (out, rs_advance r1 (N.of_nat (length out)))).
    { unfold restore. rewrite Eo, Eb. cbn in I3. unfold rs_advance. now rewrite I3. }
    cbn [run_updater]. rewrite Er.
    destruct (run_complete batches dl p (rs_advance r1 (N.of_nat (length out))) S) as [o2 E2]; auto.
    + intros x Hx. apply Hp, I, Hx.
    + intros C. specialize (I6 _ (todo_in _ _ _ I1 (N.le_refl _) C) eq_refl). discriminate.
    + cbn [concat] in Hlen. rewrite app_length in Hlen. change (live dl (rs_cur r)) with 0 in I4. unfold live in *. lia.
    + rewrite E2. cbn. eauto.
Qed.

(* files with fixed row groups of b rows: each batch is the survivors of one
   row group *)
Fixpoint row_groups {A} (d : list N) (b p c : N) (batches : list (list A)) : Prop :=
  match batches with
  | [] => c = p
  | x :: t => c < p /\ N.of_nat (length x) + live d c = live d (N.min (c + b) p) /\ row_groups d b p (N.min (c + b) p) t
  end.

Lemma group_step : forall {A} d b p r (x : list A) offs r1 out, sinc d -> (forall v, In v d -> v < p) -> rs_inv d r ->
  rs_legacy r = Some b -> 0 < b -> rs_cur r < p ->
  N.of_nat (length x) + live d (rs_cur r) = live d (N.min (rs_cur r + b) p) ->
  deleted_batch_offsets r (N.of_nat (length x)) = (offs, r1) -> add_blanks x offs = Some out ->
  rs_cur r + N.of_nat (length out) = N.min (rs_cur r + b) p.
Proof.
  intros A d b p r x offs r1 out S Hp Hi Hl Hb Hc Hlen Eo Eb.
  destruct (restore_core d r x out offs r1 S Hi Eo Eb) as [I1 I2 I3 I4 I5 I6 I7 I8].
  set (w := N.min (rs_cur r + b) p) in *. set (c' := rs_cur (rs_advance r1 (N.of_nat (length out)))) in *.
  assert (Hlive : live d c' = live d w) by lia.
  rewrite <- I2. destruct (N.lt_trichotomy c' w) as [C|[C|C]]; auto; exfalso.
  - assert (In c' d) by (apply (live_same_inv d c' w); auto; lia).
    specialize (I6 _ (todo_in _ _ _ I1 (N.le_refl _) H) eq_refl). rewrite Hl in I6. cbn in I6. lia.
  - assert (Hall : forall v, w <= v < c' -> In v d) by (apply live_same_inv; [lia|auto]).
    assert (Hw : w = rs_cur r + b).
    { destruct (N.min_spec (rs_cur r + b) p) as [[_ M]|[M1 M]]; [exact M|]. fold w in M.
      specialize (Hp w (Hall w ltac:(lia))). lia. }
    assert (Hn : rs_cur r + N.of_nat (length x) <= w).
    { pose proof (live_succ_bound d (rs_cur r) w). lia. }
    specialize (I7 w ltac:(lia) (Hall w ltac:(lia)) Hall). rewrite Hl in I7. cbn in I7. lia.
Qed.

Lemma run_groups : forall {A} (batches : list (list A)) d b p r, sinc d -> (forall v, In v d -> v < p) -> rs_inv d r ->
  rs_legacy r = Some b -> 0 < b -> (batches <> [] \/ rs_iter r = None) -> rs_cur r <= p ->
  row_groups d b p (rs_cur r) batches ->
  ((exists out, run_updater r batches = Some out) <-> ~ In [] batches).
Proof.
  intros A. induction batches as [|x t IH]; intros d b p r S Hp Hi Hl Hb Hne Hc Hg; cbn [run_updater].
  - split; [intros _ []|]. intros _. destruct Hne as [|E]; [congruence|]. unfold rs_exhausted. rewrite E. eauto.
  - cbn [row_groups] in Hg. destruct Hg as [G1 [G2 G3]].
    destruct (deleted_batch_offsets r (N.of_nat (length x))) as [offs r1] eqn:Eo.
    destruct x as [|a x].
    + (* everything in the row group is deleted *)
      split; [|intros C; exfalso; apply C; now left]. intros [out H]. exfalso.
      unfold restore in H. rewrite Eo in H.
      destruct (batch_offsets_spec d r _ _ _ S Hi Eo)
        as [d0 [taken [rem [Hd [H0 [H1 [Ho [Htodo [Hcur [Hleg [Htk [Hrem Hex]]]]]]]]]]]].
      assert (Hin : In (rs_cur r) d) by (apply (live_same_inv d (rs_cur r) (N.min (rs_cur r + b) p)); cbn in G2; lia).
      assert (Hin2 : In (rs_cur r) taken).
      { rewrite Hd, !in_app_iff in Hin. destruct Hin as [C|[C|C]]; auto; [specialize (H0 _ C); lia|].
        exfalso. destruct (Hrem _ C) as [R1 R2]. destruct taken; [|cbn in R1; lia].
        cbn in R2. rewrite Hl in R2. cbn in R2. specialize (R2 ltac:(lia)). lia. }
      destruct taken; [destruct Hin2|]. rewrite Ho in H. cbn in H. discriminate.
    + destruct (blanks_total d r (a :: x) offs r1 S Hi ltac:(left; discriminate) Eo) as [out Eb].
      pose proof (group_step d b p r (a :: x) offs r1 out S Hp Hi Hl Hb G1 G2 Eo Eb) as Hlen.
      destruct (restore_core d r (a :: x) out offs r1 S Hi Eo Eb) as [I1 I2 I3 I4 I5 I6 I7 I8].
      set (r' := rs_advance r1 (N.of_nat (length out))) in *.
      assert (Hend : rs_cur r' = p -> rs_iter r' = None).
      { intros E. apply I8. destruct (rs_todo r') as [|v todo] eqn:Et; auto. exfalso.
        destruct I1 as [d0 [E1 [_ H1]]]. rewrite Et in E1, H1. specialize (H1 v (or_introl eq_refl)).
        assert (v < p) by (apply Hp; rewrite E1; apply in_app_iff; right; now left). lia. }
      assert (Er : restore r (a :: x) = Some (out, r')).
      { unfold restore. rewrite Eo, Eb. unfold r', rs_advance in *. cbn [rs_legacy rs_cur rs_iter] in *. rewrite I3, Hl in *.
        destruct (N.of_nat (length out) =? b) eqn:E; cbn [negb andb]; auto.
        assert (rs_iter r1 = None) as En by (apply Hend; lia). unfold rs_exhausted. rewrite En. reflexivity. }
      rewrite Er. rewrite <- Hlen, <- I2 in G3.
      assert (Hc' : rs_cur r' <= p) by lia.
      assert (Hne' : t <> [] \/ rs_iter r' = None).
      { destruct t as [|y t]; [right|left; discriminate]. apply Hend. exact G3. }
      destruct (IH d b p r' S Hp I1 ltac:(congruence) Hb Hne' Hc' G3) as [J1 J2].
      split.
      * intros [o H] [C|C]; [discriminate|]. destruct (run_updater r' t) eqn:E; [|discriminate]. apply J1; eauto.
      * intros C. destruct J2 as [o2 E2]; [intros D; apply C; now right|]. rewrite E2. cbn. eauto.
Qed.

Theorem updater_groups_complete : forall {A} d b p (batches : list (list A)), dv_wf d -> (forall x, dv_has d x -> x < p) ->
  0 < b -> batches <> [] -> row_groups (dv_items d) b p 0 batches ->
  ((exists out, run_updater (rs_new d (Some b)) batches = Some out) <-> ~ In [] batches).
Proof.
  intros A d b p batches W Hp Hb Hne Hg. destruct (sorted_iter_spec d W) as [S [I L]].
  apply (run_groups batches (dv_sorted_iter d) b p (rs_new d (Some b)) S); auto.
  - intros v Hv. apply Hp, I, Hv.
  - apply rs_new_inv.
  - cbn. lia.
  - cbn [rs_new rs_cur].
    assert (E : forall n, live (dv_sorted_iter d) n = live (dv_items d) n)
      by (intros n; unfold live; rewrite (alive_ext _ (dv_items d)); auto).
    clear - Hg E. revert Hg. generalize 0. induction batches as [|x t IH]; intros c; cbn [row_groups]; auto.
    rewrite !E. intros [G1 [G2 G3]]. auto.
Qed.

Example updater_ex : run_updater (rs_new (DSet [5; 0; 1; 4]) None) [[10]; [11]; []; [12; 13]] = Some [10; 10; 10; 11; 11; 11; 12; 13]
  /\ alive [5; 0; 1; 4] 8 = [2; 3; 6; 7].
Proof. split; vm_compute; reflexivity. Qed.
Example updater_groups_ex : run_updater (rs_new (DBitmap [1; 2; 3; 5]) (Some 3)) [[10]; [11]; [12]] = Some [10; 10; 10; 11; 11; 11; 12]
  /\ row_groups [1; 2; 3; 5] 3 7 0 [[10]; [11]; [12]].
Proof. split; [vm_compute; reflexivity|]. cbn. repeat split; vm_compute; reflexivity. Qed.
