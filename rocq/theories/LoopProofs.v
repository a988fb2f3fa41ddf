(* C30, C34: what the commit loop writes is a history. *)
From Coq Require Import List Arith NArith ZArith Bool Lia ZifyN ZifyNat ZifyBool.
From Verif Require Import Lib AMap TxnModel TxnSpec TxnLemmas NamingModel ProtoModel ProtoSpec ProtoProofs ProtoExtProofs ProtoExamples ProtoResults LoopModel.
Import ListNotations.
Local Open Scope N_scope.

(* ---- the claim ----
   The versions 1..n of a table in order: each was built on its predecessor and its
   transaction was found free of conflicts with every transaction since the version it
   was prepared from, as read back from their files. *)
Inductive checked_history (seen : txn -> txn) : list entry -> Prop :=
| ch_nil : checked_history seen []
| ch_next : forall h t c file m ix, checked_history seen h ->
    (h = [] \/ 1 <= t_read t <= N.of_nat (length h)) ->
    (forall u e, t_read t < u -> version_entry h u = Some e -> conflicts_with (t_op t) (t_op (seen (e_txn e))) = false) ->
    commit_on h t file c = BOk (m, ix) ->
    checked_history seen (h ++ [{| e_txn := t; e_cfg := c; e_man := m; e_idx := ix |}]).

Lemma version_entry_app : forall h e v x, version_entry h v = Some x -> version_entry (h ++ [e]) v = Some x.
Proof. intros h e v x H. unfold version_entry in *. destruct (v =? 0); [discriminate|]. rewrite nth_error_app1; [exact H|]. apply nth_error_Some. congruence. Qed.
Lemma version_entry_new : forall h e, version_entry (h ++ [e]) (N.of_nat (length h) + 1) = Some e.
Proof. intros h e. unfold version_entry. replace (N.of_nat (length h) + 1 =? 0) with false by lia. rewrite nth_error_app2 by lia. replace (N.to_nat (N.of_nat (length h) + 1) - 1 - length h)%nat with 0%nat by lia. reflexivity. Qed.
Lemma version_entry_bound : forall h v e, version_entry h v = Some e -> 1 <= v <= N.of_nat (length h).
Proof. intros h v e H. unfold version_entry in H. destruct (v =? 0) eqn:E; [discriminate|]. assert (N.to_nat v - 1 < length h)%nat by (apply nth_error_Some; congruence). lia. Qed.
Lemma version_entry_some : forall h v, 1 <= v <= N.of_nat (length h) -> exists e, version_entry h v = Some e.
Proof. intros h v H. unfold version_entry. replace (v =? 0) with false by lia. destruct (nth_error h (N.to_nat v - 1)) eqn:E; [eauto|]. apply nth_error_None in E. lia. Qed.
Lemma version_entry_snoc : forall h e v, version_entry (h ++ [e]) v = if v =? N.of_nat (length h) + 1 then Some e else version_entry h v.
Proof.
  intros h e v. destruct (v =? N.of_nat (length h) + 1) eqn:E; [apply N.eqb_eq in E; subst; apply version_entry_new|]. unfold version_entry. destruct (v =? 0) eqn:E0; [reflexivity|].
  destruct (Nat.lt_ge_cases (N.to_nat v - 1) (length h)); [rewrite nth_error_app1 by assumption; reflexivity|].
  rewrite (proj2 (nth_error_None (h ++ [e]) (N.to_nat v - 1))), (proj2 (nth_error_None h (N.to_nat v - 1))); [reflexivity|lia|rewrite app_length; cbn; lia].
Qed.
Lemma version_last : forall h, h <> [] -> version_entry h (N.of_nat (length h)) = last_entry h.
Proof. intros [|x h] H; [contradiction|]. unfold version_entry, last_entry. replace (N.of_nat (length (x :: h)) =? 0) with false by (cbn; lia). rewrite Nnat.Nat2N.id. reflexivity. Qed.

Lemma commit_version : forall h t f c m ix, (forall e, last_entry h = Some e -> m_version (e_man e) = N.of_nat (length h)) -> commit_on h t f c = BOk (m, ix) ->
  m_version m = N.of_nat (length h) + 1.
Proof.
  intros h t f c m ix V H. unfold commit_on in H. apply bbind_ok in H as [[m0 ix0] [B F]]. apply bbind_ok in F as [m1 [F E]]. injection E as -> ->.
  apply finish_inv in F. destruct F as [_ [-> _]]. destruct (last_entry h) as [e|] eqn:LE.
  - rewrite <- (V e eq_refl). destruct (t_op t) eqn:O; try (apply build_inv in B; destruct B as [? [? [? [? [_ [_ [_ [_ [_ [_ [_ [_ [_ [_ [-> _]]]]]]]]]]]]]]]; reflexivity).
    destruct (version_entry h version); [|discriminate]. injection B as <- <-. reflexivity.
  - apply build_inv in B. destruct B as [? [? [? [? [_ [_ [_ [_ [_ [_ [_ [_ [_ [_ [-> _]]]]]]]]]]]]]]]. unfold last_entry in LE. apply nth_error_None in LE. destruct h; cbn in *; [reflexivity|lia].
Qed.
(* the manifest of version v says v *)
Lemma checked_versions : forall seen h, checked_history seen h -> forall v e, version_entry h v = Some e -> m_version (e_man e) = v.
Proof.
  intros seen h H. induction H as [|h t c f m ix H IH R C B]; intros v e E; [apply version_entry_bound in E; cbn in E; lia|].
  rewrite version_entry_snoc in E. destruct (v =? N.of_nat (length h) + 1) eqn:EV; [|exact (IH v e E)]. injection E as <-. cbn. apply N.eqb_eq in EV. subst v.
  apply (commit_version h t f c m ix); [|exact B]. intros e0 LE. apply IH. rewrite version_last; [exact LE|]. intros ->. discriminate.
Qed.
(* with transactions read back faithfully, these are the histories of TxnModel *)
Theorem checked_history_faithful : forall seen, (forall a b, conflicts_with (t_op a) (t_op (seen b)) = conflicts_with (t_op a) (t_op b)) ->
  forall h, checked_history seen h -> history h.
Proof.
  intros seen F h H. induction H as [|h t c f m ix H IH R C B]; [constructor|]. apply (hist_next h t c f m ix); [exact IH|exact R| |exact B].
  apply Forall_forall. intros e J. apply In_nth_error in J. destruct J as [n J]. rewrite <- F. apply (C (t_read t + N.of_nat n + 1) e); [lia|].
  unfold version_entry. replace (t_read t + N.of_nat n + 1 =? 0) with false by lia. replace (N.to_nat (t_read t + N.of_nat n + 1) - 1)%nat with (N.to_nat (t_read t) + n)%nat by lia.
  rewrite <- J. clear. revert h. induction (N.to_nat (t_read t)) as [|k IH]; intros h; [reflexivity|]. destruct h; cbn; [now destruct n|apply IH].
Qed.

(* ---- the loop over two stores, one simulating the other ---- *)
Theorem loop_simulates : forall skip seen (H G : lts (label entry)) R, simulates H G R ->
  simulates (loop_lts skip seen H) (loop_lts skip seen G) (fun p q => R (fst p) (fst q) /\ snd p = snd q).
Proof.
  intros skip seen H G R [I S]. split.
  - intros [s w] [IS IW]. destruct (I s IS) as [a [IA RA]]. exists (a, w). cbn in *. auto.
  - intros p l p' [a w] [RA E] ST. cbn in *. subst w. inversion ST; subst; cbn in *.
    + destruct (S s None s' a RA H0) as [a' [RA' [SA|[_ ->]]]]; [exists (a', w); split; [auto|]; left; apply lp_store, SA|exists (a, w); auto].
    + destruct (S s (Some l0) s' a RA H0) as [a' [RA' [SA|[C _]]]]; [|discriminate]. exists (a', w). split; [auto|]. left. apply lp_env; assumption.
    + exists (a, upN w i p0). split; [auto|]. left. apply lp_tau. assumption.
    + destruct (S s (Some l0) s' a RA H0) as [a' [RA' [SA|[C _]]]]; [|discriminate]. exists (a', upN w i p0). split; [auto|]. left. eapply lp_sync; eassumption.
Qed.

(* ---- the invariant over the atomic register ---- *)
Definition free_of (seen : txn -> txn) (h : list entry) (t : txn) (u : N) : Prop :=
  forall e, version_entry h u = Some e -> conflicts_with (t_op t) (t_op (seen (e_txn e))) = false.
(* a manifest that may become version v *)
Definition valid (seen : txn -> txn) (h : list entry) (v : N) (x : entry) : Prop :=
  1 <= v <= N.of_nat (length h) + 1 /\ (v = N.of_nat (length h) + 1 -> checked_history seen (h ++ [x])).
Definition read_ok (h : list entry) (t : txn) : Prop := 1 <= t_read t <= N.of_nat (length h).
Definition attempt (st : N -> status entry) (a v : N) (t : txn) : Prop :=
  exists x, (st a = SActive v x \/ st a = SWon v x \/ st a = SDone) /\ e_txn x = t.
Definition winv (seen : txn -> txn) (h : list entry) (st : N -> status entry) (p : wpc) : Prop :=
  match p with
  | WIdle | WFail => True
  | WNew x => valid seen h 1 x
  | WNewWait x a => attempt st a 1 (e_txn x)
  | WTxn t c f => read_ok h t
  | WLatest t c f first k lo L => read_ok h t /\ L <= N.of_nat (length h) /\ lo <= N.of_nat (length h) + 1 /\ forall u, t_read t < u < lo -> free_of seen h t u
  | WCheck t c f first k L e todo => read_ok h t /\ version_entry h L = Some e /\ forall u, t_read t < u <= L -> In u todo \/ free_of seen h t u
  | WBuild t c f k L e => read_ok h t /\ version_entry h L = Some e /\ forall u, t_read t < u <= L -> free_of seen h t u
  | WReady t c f k L x => read_ok h t /\ valid seen h (L + 1) x /\ e_txn x = t /\ forall u, t_read t < u <= L -> free_of seen h t u
  | WWait t c f k L a => read_ok h t /\ L <= N.of_nat (length h) /\ attempt st a (L + 1) t /\ forall u, t_read t < u <= L -> free_of seen h t u
  | WRetry t c f k tgt => read_ok h t /\ tgt <= N.of_nat (length h) + 1 /\ forall u, t_read t < u < tgt -> free_of seen h t u
  | WDone t v => exists e, version_entry h v = Some e /\ e_txn e = t
  end.
Definition linv (seen : txn -> txn) (s : ast entry * (N -> wpc)) (h : list entry) : Prop :=
  checked_history seen h /\ (forall v, a_vers (fst s) v = version_entry h v) /\
  (forall a v x, a_st (fst s) a = SActive v x -> valid seen h v x) /\
  (forall a v x, a_st (fst s) a = SWon v x -> version_entry h v = Some x) /\
  (forall i, winv seen h (a_st (fst s)) (snd s i)).

Lemma free_of_grow : forall seen h x t u, u <= N.of_nat (length h) -> free_of seen h t u -> free_of seen (h ++ [x]) t u.
Proof. intros seen h x t u B F e E. rewrite version_entry_snoc in E. replace (u =? N.of_nat (length h) + 1) with false in E by lia. exact (F e E). Qed.
Lemma valid_grow : forall seen h x v y, valid seen h v y -> valid seen (h ++ [x]) v y.
Proof. intros seen h x v y [B _]. unfold valid. rewrite app_length. cbn. split; [lia|]. intros ->. lia. Qed.
Lemma read_ok_grow : forall h x t, read_ok h t -> read_ok (h ++ [x]) t.
Proof. unfold read_ok. intros h x t B. rewrite app_length. cbn. lia. Qed.
Lemma winv_grow : forall seen h x st p, winv seen h st p -> winv seen (h ++ [x]) st p.
Proof.
  intros seen h x st p W. assert (LA : length (h ++ [x]) = S (length h)) by (rewrite app_length; cbn; lia).
  destruct p; cbn [winv] in *; try exact W; rewrite ?LA.
  - apply valid_grow, W.
  - apply read_ok_grow, W.
  - destruct W as [W1 [W2 [W3 W4]]]. split; [apply read_ok_grow, W1|]. split; [lia|]. split; [lia|]. intros u B. apply free_of_grow; [lia|apply W4, B].
  - destruct W as [W1 [W2 W3]]. split; [apply read_ok_grow, W1|]. split; [apply version_entry_app, W2|]. intros u B. pose proof (version_entry_bound _ _ _ W2). destruct (W3 u B) as [J|J]; [auto|right]. apply free_of_grow; [lia|exact J].
  - destruct W as [W1 [W2 W3]]. split; [apply read_ok_grow, W1|]. split; [apply version_entry_app, W2|]. intros u B. pose proof (version_entry_bound _ _ _ W2). apply free_of_grow; [lia|apply W3, B].
  - destruct W as [W1 [W2 [W3 W4]]]. split; [apply read_ok_grow, W1|]. split; [apply valid_grow, W2|]. split; [exact W3|]. intros u B. apply free_of_grow; [destruct W2; lia|apply W4, B].
  - destruct W as [W1 [W2 [W3 W4]]]. split; [apply read_ok_grow, W1|]. split; [lia|]. split; [exact W3|]. intros u B. apply free_of_grow; [lia|apply W4, B].
  - destruct W as [W1 [W2 W3]]. split; [apply read_ok_grow, W1|]. split; [lia|]. intros u B. apply free_of_grow; [lia|apply W3, B].
  - destruct W as [e [E T]]. exists e. split; [apply version_entry_app, E|exact T].
Qed.
(* an attempt of somebody else moves on *)
Lemma winv_status : forall seen h st st' p, (forall a v x, st a = SActive v x -> st' a = SActive v x \/ st' a = SWon v x \/ st' a = SDone) ->
  (forall a v x, st a = SWon v x -> st' a = SWon v x \/ st' a = SDone) -> (forall a, st a = SDone -> st' a = SDone) -> winv seen h st p -> winv seen h st' p.
Proof.
  intros seen h st st' p A B C W.
  assert (AT : forall a v t, attempt st a v t -> attempt st' a v t).
  { intros a v t [x [D E]]. exists x. split; [|exact E]. destruct D as [D|[D|D]]; [apply (A _ _ _ D)| |right; right; apply C, D]. destruct (B _ _ _ D); auto. }
  destruct p; cbn [winv] in *; try exact W; [apply AT, W|]. destruct W as [W1 [W2 [W3 W4]]]. auto.
Qed.

(* what the loop builds is what commit_on builds *)
Lemma loop_build_on : forall seen h t c f e old x, checked_history seen h -> version_entry h (N.of_nat (length h)) = Some e ->
  (forall v, t_op t = Restore v -> exists o, old = Some o /\ version_entry h v = Some o) -> loop_build t c f (N.of_nat (length h)) e old = BOk x ->
  exists m ix, x = {| e_txn := t; e_cfg := c; e_man := m; e_idx := ix |} /\ commit_on h t f c = BOk (m, ix).
Proof.
  intros seen h t c f e old x CH E RO B. assert (NE : h <> []) by (intros ->; discriminate). pose proof (checked_versions seen h CH _ _ E) as V. rewrite version_last in E by exact NE.
  unfold loop_build in B. apply bbind_ok in B as [[m ix] [B1 B2]]. apply bbind_ok in B2 as [m' [F X]]. injection X as <-. exists m', ix. split; [reflexivity|].
  unfold commit_on. rewrite E.
  assert (G : bbind (build_manifest t (Some (e_man e)) (e_idx e) f c) (fun '(m, ix) => BOk ({| m_version := N.of_nat (length h) + 1; m_schema := m_schema m; m_fragments := m_fragments m; m_rflags := m_rflags m; m_wflags := m_wflags m;
     m_max := m_max m; m_next_row := m_next_row m; m_config := m_config m; m_tag := m_tag m; m_txn := m_txn m |}, ix)) = BOk (m, ix) ->
     build_manifest t (Some (e_man e)) (e_idx e) f c = BOk (m, ix)).
  { intros G. apply bbind_ok in G as [[m0 ix0] [G1 G2]]. pose proof (build_inv _ _ _ _ _ _ _ G1) as [? [? [? [? [_ [_ [_ [_ [_ [_ [_ [_ [_ [_ [MV _]]]]]]]]]]]]]]]. rewrite G1. injection G2 as <- <-. rewrite <- V, <- MV. destruct m0. reflexivity. }
  destruct (t_op t) eqn:O; try (rewrite (G B1); cbn [bbind]; rewrite F; reflexivity).
  destruct (RO version eq_refl) as [o [-> EO]]. rewrite EO. injection B1 as <- <-. rewrite V. cbn [bbind]. rewrite F. reflexivity.
Qed.
Lemma new_build_on : forall t c f x, new_build t c f = BOk x -> exists m ix, x = {| e_txn := t; e_cfg := c; e_man := m; e_idx := ix |} /\ commit_on [] t f c = BOk (m, ix).
Proof.
  intros t c f x B. unfold new_build in B. apply bbind_ok in B as [[m ix] [B1 B2]]. apply bbind_ok in B2 as [m' [F X]]. injection X as <-. exists m', ix. split; [reflexivity|].
  unfold commit_on. change (last_entry []) with (@None entry). rewrite B1. cbn [bbind]. rewrite F. reflexivity.
Qed.

Lemma store_step : forall seen s l s' w h, linv seen (s, w) h -> abs_step s l s' -> (forall a v x, l = Some (LBegin a v x) -> valid seen h v x) ->
  exists h', linv seen (s', w) h' /\ (l <> None -> h' = h).
Proof.
  intros seen s l s' w h [CH [HV [HA [HW HI]]]] ST BG. cbn [fst snd] in *. inversion ST; subst; cbn [a_vers a_st] in *.
  - (* begin *) exists h. split; [|auto]. split; [exact CH|]. split; [exact HV|]. cbn [fst snd a_st a_vers]. split; [|split].
    + intros b u y E. destruct (N.eq_dec b a) as [->|n]; up; [injection E as <- <-; apply (BG a); reflexivity|exact (HA _ _ _ E)].
    + intros b u y E. destruct (N.eq_dec b a) as [->|n]; up; [discriminate|exact (HW _ _ _ E)].
    + intros i. apply (winv_status seen h st); [| | |apply HI]; intros b; intros; (destruct (N.eq_dec b a) as [->|n]; up; [congruence|auto]).
  - (* commit *) pose proof (HA _ _ _ H) as [B C]. assert (v = N.of_nat (length h) + 1).
    { apply N.le_antisymm; [lia|]. apply N.le_ngt. intros LT. destruct (version_entry_some h v) as [e E]; [lia|]. rewrite <- HV in E. congruence. }
    subst v. exists (h ++ [x]). split; [|intros X; now contradiction X]. split; [apply C; reflexivity|]. cbn [fst snd a_st a_vers]. split; [|split; [|split]].
    + intros u. rewrite version_entry_snoc. destruct (N.eqb_spec u (N.of_nat (length h) + 1)) as [->|n]; up; [reflexivity|apply HV].
    + intros b u y E. destruct (N.eq_dec b a) as [->|n]; up; [discriminate|]. apply valid_grow, (HA _ _ _ E).
    + intros b u y E. destruct (N.eq_dec b a) as [->|n]; up; [injection E as <- <-; apply version_entry_new|]. apply version_entry_app, (HW _ _ _ E).
    + intros i. apply winv_grow. apply (winv_status seen h st); [| | |apply HI]; intros b; intros; (destruct (N.eq_dec b a) as [->|n]; up; [rewrite H in *; try discriminate; auto|auto]).
      right. left. congruence.
  - (* ok *) exists h. split; [|auto]. split; [exact CH|]. split; [exact HV|]. cbn [fst snd a_st a_vers]. split; [|split].
    + intros b u y E. destruct (N.eq_dec b a) as [->|n]; up; [discriminate|exact (HA _ _ _ E)].
    + intros b u y E. destruct (N.eq_dec b a) as [->|n]; up; [discriminate|exact (HW _ _ _ E)].
    + intros i. apply (winv_status seen h st); [| | |apply HI]; intros b; intros; (destruct (N.eq_dec b a) as [->|n]; up; auto).
  - (* conflict *) exists h. split; [|auto]. split; [exact CH|]. split; [exact HV|]. cbn [fst snd a_st a_vers]. split; [|split].
    + intros b u y E. destruct (N.eq_dec b a) as [->|n]; up; [discriminate|exact (HA _ _ _ E)].
    + intros b u y E. destruct (N.eq_dec b a) as [->|n]; up; [discriminate|exact (HW _ _ _ E)].
    + intros i. apply (winv_status seen h st); [| | |apply HI]; intros b; intros; (destruct (N.eq_dec b a) as [->|n]; up; auto).
  - (* error *) exists h. split; [|auto]. split; [exact CH|]. split; [exact HV|]. cbn [fst snd a_st a_vers]. split; [|split].
    + intros b u y E. destruct (N.eq_dec b a) as [->|n]; up; [discriminate|exact (HA _ _ _ E)].
    + intros b u y E. destruct (N.eq_dec b a) as [->|n]; up; [discriminate|exact (HW _ _ _ E)].
    + intros i. apply (winv_status seen h st); [| | |apply HI]; intros b; intros; (destruct (N.eq_dec b a) as [->|n]; up; auto).
  - exists h. split; [|auto]. split; [exact CH|]. split; [exact HV|]. auto.
  - exists h. split; [|auto]. split; [exact CH|]. split; [exact HV|]. auto.
Qed.

(* what a writer learns from a label *)
Lemma label_read : forall (s : ast entry) v x s', abs_step s (Some (LRead v x)) s' -> a_vers s v = Some x.
Proof. intros s v x s' H. inversion H; subst. assumption. Qed.
Lemma label_latest : forall (s : ast entry) v s', abs_step s (Some (LLatest v)) s' -> a_vers s v <> None.
Proof. intros s v s' H. inversion H; subst. assumption. Qed.
Lemma label_ok : forall (s : ast entry) a s', abs_step s (Some (LRet a ROk)) s' -> exists v x, a_st s a = SWon v x.
Proof. intros s a s' H. inversion H; subst; eauto. Qed.
Lemma versions_In : forall lo L u, In u (versions lo L) <-> lo <= u <= L.
Proof. intros lo L u. unfold versions. rewrite nrange_In. lia. Qed.

Lemma built_valid : forall seen h t c f L e old x, checked_history seen h -> read_ok h t -> version_entry h L = Some e -> (forall u, t_read t < u <= L -> free_of seen h t u) ->
  (forall v, t_op t = Restore v -> exists o, old = Some o /\ version_entry h v = Some o) -> loop_build t c f L e old = BOk x -> valid seen h (L + 1) x /\ e_txn x = t.
Proof.
  intros seen h t c f L e old x CH RO E FR OL B. pose proof (version_entry_bound _ _ _ E) as LB. split.
  - split; [lia|]. intros EL. assert (L = N.of_nat (length h)) by lia. subst L. destruct (loop_build_on seen h t c f e old x CH E OL B) as [m [ix [-> CO]]].
    apply (ch_next seen h t c f m ix); [exact CH|right; exact RO| |exact CO]. intros u y LT EU. apply (FR u); [|exact EU]. apply version_entry_bound in EU. lia.
  - unfold loop_build in B. apply bbind_ok in B as [[m ix] [_ B]]. apply bbind_ok in B as [m' [_ B]]. injection B as <-. reflexivity.
Qed.
Lemma writer_step : forall skip seen s l s' w h i p, linv seen (s, w) h -> abs_step s (Some l) s' -> wstep skip seen (w i) (Some l) p ->
  (forall a v x, l = LBegin a v x -> valid seen h v x) /\ winv seen h (a_st s') p.
Proof.
  intros skip seen s l s' w h i p [CH [HV [HA [HW HI]]]] ST WS. cbn [fst snd] in *. specialize (HI i). remember (w i) as q eqn:Q. clear Q.
  assert (RD : forall v x, l = LRead v x -> version_entry h v = Some x) by (intros v x ->; apply label_read in ST; rewrite <- HV; exact ST).
  assert (LT : forall v, l = LLatest v -> 1 <= v <= N.of_nat (length h)).
  { intros v ->. apply label_latest in ST. rewrite HV in ST. destruct (version_entry h v) eqn:E; [exact (version_entry_bound _ _ _ E)|contradiction]. }
  assert (BE : forall a v x, l = LBegin a v x -> a_st s' a = SActive v x) by (intros a v x ->; inversion ST; subst; cbn; up; reflexivity).
  assert (RT : forall a r, l = LRet a r -> a_st s' a = SDone) by (intros a r ->; inversion ST; subst; cbn; up; reflexivity).
  inversion WS; subst; cbn [winv] in HI |- *; (split; [try discriminate|try exact Logic.I]).
  - intros a0 v x0 E. injection E as <- <- <-. exact HI.
  - exists x. split; [left; apply BE; reflexivity|reflexivity].
  - destruct (label_ok _ _ _ ST) as [v [y E]]. destruct HI as [x' [D T]]. exists y. destruct D as [D|[D|D]]; try congruence. rewrite D in E. injection E as <- <-. split; [exact (HW _ _ _ D)|exact T].
  - unfold read_ok. exact (version_entry_bound _ _ _ (RD _ _ eq_refl)).
  - split; [exact HI|]. specialize (LT L eq_refl). unfold read_ok in HI. split; [lia|]. split; [lia|]. intros u B. lia.
  - destruct HI as [W1 [W2 [W3 W4]]]. split; [exact W1|]. split; [exact (RD _ _ eq_refl)|]. intros u B. destruct (N.lt_ge_cases u lo); [right; apply W4; lia|left; apply versions_In; lia].
  - destruct HI as [W1 [W2 W3]]. split; [exact W1|]. split; [exact W2|]. intros u0 B. destruct (W3 u0 B) as [J|J]; [|auto]. destruct (N.eq_dec u0 u) as [->|n].
    + right. intros z E. rewrite (RD u y eq_refl) in E. injection E as <-. assumption.
    + left. apply filter_In. split; [exact J|]. apply negb_true_iff, N.eqb_neq, n.
  - inversion ST.
  - destruct HI as [W1 [W2 W3]]. match goal with LB : loop_build _ _ _ _ _ (Some old) = _ |- _ => destruct (fun OL => built_valid seen h t c f L e (Some old) x CH W1 W2 W3 OL LB) as [V T]; [|auto] end.
    intros v0 E. assert (v0 = v) by congruence. subst v0. exists old. split; [reflexivity|]. apply RD. reflexivity.
  - intros a0 v x0 E. injection E as <- <- <-. exact (proj1 (proj2 HI)).
  - destruct HI as [W1 [W2 [W3 W4]]]. split; [exact W1|]. split; [destruct W2; lia|]. split; [|exact W4]. exists x. split; [left; apply BE; reflexivity|exact W3].
  - destruct HI as [W1 [W2 [[x' [D T]] W4]]]. destruct (label_ok _ _ _ ST) as [v [y E]]. exists y. destruct D as [D|[D|D]]; try congruence. rewrite D in E. injection E as <- <-. split; [exact (HW _ _ _ D)|exact T].
  - destruct HI as [W1 [W2 [W3 W4]]]. split; [exact W1|]. split; [lia|]. intros u B. apply W4. lia.
  - destruct HI as [W1 [W2 W3]]. specialize (LT L eq_refl). split; [exact W1|]. split; [lia|]. split; [exact W2|exact W3].
Qed.
Lemma writer_tau : forall skip seen s w h i p, linv seen (s, w) h -> wstep skip seen (w i) None p -> winv seen h (a_st s) p.
Proof.
  intros skip seen s w h i p [CH [HV [HA [HW HI]]]] WS. cbn [fst snd] in *. specialize (HI i). remember (w i) as q eqn:Q. clear Q. inversion WS; subst; cbn [winv] in HI |- *; try exact Logic.I.
  - split; [lia|]. intros E. assert (h = []) by (destruct h; [reflexivity|cbn in E; lia]). subst h. destruct (new_build_on _ _ _ _ H) as [m [ix [-> CO]]].
    apply (ch_next seen [] t c f m ix); [exact CH|left; reflexivity| |exact CO]. intros u e LT E'. apply version_entry_bound in E'. cbn in E'. lia.
  - destruct HI as [W1 [W2 W3]]. split; [exact W1|]. split; [exact W2|]. intros u B. destruct (W3 u B) as [[]|J]. exact J.
  - destruct HI as [W1 [W2 W3]]. match goal with LB : loop_build _ _ _ _ _ None = _ |- _ => destruct (fun OL => built_valid seen h t c f L e None x CH W1 W2 W3 OL LB) as [V T]; [|auto] end.
    intros v E. match goal with NR : forall v, t_op t <> Restore v |- _ => now contradiction (NR v) end.
Qed.
(* the register where readers may also find versions missing *)
Definition gone_lts (b : bool) : lts (label entry) :=
  {| lst := ast entry; linit := linit (abs_lts entry); lstep := fun s l s' => abs_step s l s' \/ (b = true /\ exists v, l = Some (LGone v) /\ s' = s) |}.
Theorem loop_inv : forall b skip seen s0 tr s, (b = true -> skip = false) -> linit (loop_lts skip seen (gone_lts b)) s0 -> run (loop_lts skip seen (gone_lts b)) s0 tr s -> exists h, linv seen s h.
Proof.
  intros gb skip seen s0 tr s GS I X.
  assert (ONE : forall s l s', (exists h, linv seen s h) -> loop_step skip seen (gone_lts gb) s l s' -> exists h, linv seen s' h).
  { clear - GS. intros s l s' [h LI] ST. inversion ST; subst; cbn [lstep gone_lts] in *.
    - destruct H as [H|[_ [v [E _]]]]; [|discriminate]. destruct (store_step seen s0 None s'0 w h LI H) as [h' [LI' _]]; [discriminate|]. eauto.
    - destruct H as [H|[_ [v [_ ->]]]]; [|eauto]. destruct (store_step seen s0 (Some l0) s'0 w h LI H) as [h' [LI' _]]; [|eauto]. intros a v x E. injection E as ->. discriminate.
    - exists h. pose proof (writer_tau skip seen s0 w h i p LI H) as W. destruct LI as [CH [HV [HA [HW HI]]]]. split; [exact CH|]. split; [exact HV|]. split; [exact HA|]. split; [exact HW|].
      intros j. cbn. destruct (N.eq_dec j i) as [->|n]; up; [exact W|apply HI].
    - destruct H as [H|[GB [v [E ->]]]].
      + destruct (writer_step skip seen s0 l0 s'0 w h i p LI H H0) as [BG W]. destruct (store_step seen s0 (Some l0) s'0 w h LI H) as [h' [LI' EH]]; [intros a v x E; injection E as ->; apply (BG a v x); reflexivity|].
        assert (h' = h) by (apply EH; discriminate). subst h'. exists h. destruct LI' as [CH [HV [HA [HW HI]]]]. split; [exact CH|]. split; [exact HV|]. split; [exact HA|]. split; [exact HW|].
        intros j. cbn. destruct (N.eq_dec j i) as [->|n]; up; [exact W|apply HI].
      + injection E as ->. assert (p = WFail) by (specialize (GS GB); inversion H0; [congruence|reflexivity]). subst p.
        exists h. destruct LI as [CH [HV [HA [HW HI]]]]. split; [exact CH|]. split; [exact HV|]. split; [exact HA|]. split; [exact HW|].
        intros j. cbn. destruct (N.eq_dec j i) as [->|n]; up; [exact Logic.I|apply HI]. }
  induction X as [s|s tr s1 s2 X IH ST|s tr s1 l s2 X IH ST].
  - exists []. destruct s as [s w]. destruct I as [[I1 I2] IW]. cbn in *. split; [constructor|]. cbn. split; [intros v; rewrite I1; unfold version_entry; destruct (v =? 0); [reflexivity|]; now destruct (N.to_nat v - 1)%nat|].
    split; [intros a v x E; rewrite I2 in E; discriminate|]. split; [intros a v x E; rewrite I2 in E; discriminate|]. intros i. rewrite IW. exact Logic.I.
  - exact (ONE _ _ _ (IH I) ST).
  - exact (ONE _ _ _ (IH I) ST).
Qed.

(* ---- C30, C34 for any handler that refines the register ---- *)
Theorem loop_history_gone : forall b skip seen (H : lts (label entry)) R, (b = true -> skip = false) -> simulates H (gone_lts b) R ->
  forall s, reachable (loop_lts skip seen H) s -> exists a h, R (fst s) a /\ checked_history seen h /\ (forall v, a_vers a v = version_entry h v) /\
    (forall i t v, snd s i = WDone t v -> exists e, version_entry h v = Some e /\ e_txn e = t).
Proof.
  intros b skip seen H R GS SIM s [s0 [tr [I X]]]. pose proof (loop_simulates skip seen H (gone_lts b) R SIM) as LS. destruct (proj1 LS s0 I) as [a0 [I0 R0]].
  destruct (simulates_run _ _ _ LS _ _ _ X a0 R0) as [a [Y [RA E]]]. destruct (loop_inv b skip seen a0 tr a GS I0 Y) as [h [CH [HV [_ [_ HI]]]]].
  exists (fst a), h. split; [exact RA|]. split; [exact CH|]. split; [exact HV|]. intros i t v EW. specialize (HI i). assert (E' : snd a i = WDone t v) by (rewrite <- EW; exact (f_equal (fun g => g i) (eq_sym E))). exact (eq_ind _ (winv seen h (a_st (fst a))) HI _ E').
Qed.
Lemma abs_gone : forall (H : lts (label entry)) R, simulates H (abs_lts entry) R -> simulates H (gone_lts false) R.
Proof. intros H R [S1 S2]. split; [exact S1|]. intros s l s' a RA ST. destruct (S2 s l s' a RA ST) as [a' [RA' [SA|E]]]; exists a'; split; auto. left. left. exact SA. Qed.
Theorem loop_history : forall skip seen (H : lts (label entry)) R, simulates H (abs_lts entry) R ->
  forall s, reachable (loop_lts skip seen H) s -> exists a h, R (fst s) a /\ checked_history seen h /\ (forall v, a_vers a v = version_entry h v) /\
    (forall i t v, snd s i = WDone t v -> exists e, version_entry h v = Some e /\ e_txn e = t).
Proof. intros skip seen H R SIM. apply (loop_history_gone false); [discriminate|apply abs_gone, SIM]. Qed.
(* the versions in the store are exactly the entries 1..n of a checked history *)
Theorem rename_history : forall skip seen S0 s, reachable (loop_lts skip seen (rename_lts entry (fun x => x = S0))) s ->
  exists h, checked_history seen h /\ (forall v, r_obj (fst s) (PFinal S0 v) = version_entry h v) /\
    (forall i t v, snd s i = WDone t v -> exists e, version_entry h v = Some e /\ e_txn e = t).
Proof. intros skip seen S0 s R. destruct (loop_history skip seen _ _ (rename_simulates entry S0) s R) as [a [h [[RV _] [CH [HV HD]]]]]. exists h. split; [exact CH|]. split; [|exact HD]. intros v. rewrite <- RV. apply HV. Qed.
Theorem lock_history : forall skip seen S0 s, reachable (loop_lts skip seen (lock_lts entry (fun x => x = S0) false)) s ->
  exists h, checked_history seen h /\ (forall v, k_obj (fst s) (PFinal S0 v) = version_entry h v) /\
    (forall i t v, snd s i = WDone t v -> exists e, version_entry h v = Some e /\ e_txn e = t).
Proof. intros skip seen S0 s R. destruct (loop_history skip seen _ _ (lock_simulates entry S0) s R) as [a [h [[RV _] [CH [HV HD]]]]]. exists h. split; [exact CH|]. split; [|exact HD]. intros v. rewrite <- RV. apply HV. Qed.
Theorem ext_history : forall skip seen s, reachable (loop_lts skip seen (ext_lts entry false)) s ->
  exists h, checked_history seen h /\ (forall v x, recorded (fst s) v x <-> version_entry h v = Some x) /\
    (forall i t v, snd s i = WDone t v -> exists e, version_entry h v = Some e /\ e_txn e = t).
Proof.
  intros skip seen s R. destruct (loop_history skip seen _ _ (ext_simulates entry) s R) as [a [h [[W [[J1 [J2 _]] [I2 _]]] [CH [HV HD]]]]]. exists h. split; [exact CH|]. split; [|exact HD].
  intros v x. rewrite <- HV, I2. split.
  - intros [p [P1 [P2 _]]]. destruct (W v) as [[[b sc] z]|] eqn:E; [|rewrite (J1 v E) in P1; discriminate]. cbn. destruct (J2 _ _ _ _ E) as [[K1 K2]|[K1 K2]]; congruence.
  - intros E. destruct (W v) as [[[b sc] z]|] eqn:EW; [|discriminate]. injection E as ->. destruct (J2 _ _ _ _ EW) as [[K1 K2]|[K1 K2]]; eexists; split; try eassumption; split; auto.
Qed.
(* C34, spelled out for the versions found in the store *)
Definition checked_version (seen : txn -> txn) (at_ : N -> option entry) (v : N) (e : entry) : Prop :=
  (v = 1 \/ 1 <= t_read (e_txn e) < v) /\
  (forall u y, t_read (e_txn e) < u < v -> at_ u = Some y -> conflicts_with (t_op (e_txn e)) (t_op (seen (e_txn y))) = false) /\
  (1 < v -> match t_op (e_txn e) with
            | Restore r => exists o f, at_ r = Some o /\ r < v /\ finish (e_cfg e) (set_version (e_man o) v f) = BOk (e_man e) /\ e_idx e = e_idx o
            | _ => exists p f m, at_ (v - 1) = Some p /\ build_manifest (e_txn e) (Some (e_man p)) (e_idx p) f (e_cfg e) = BOk (m, e_idx e) /\ finish (e_cfg e) m = BOk (e_man e)
            end).
Lemma checked_history_versions : forall seen h, checked_history seen h -> forall v e, version_entry h v = Some e -> checked_version seen (version_entry h) v e.
Proof.
  intros seen h CH. induction CH as [|h t c f m ix CH IH RO FR CO]; intros v e EV; [apply version_entry_bound in EV; cbn in EV; lia|].
  pose proof (checked_versions seen h CH) as VV. pose proof (version_entry_bound _ _ _ EV) as VB. rewrite app_length in VB. cbn in VB. rewrite version_entry_snoc in EV. destruct (v =? N.of_nat (length h) + 1) eqn:E1.
  - injection EV as <-. apply N.eqb_eq in E1. subst v. split; [|split]; cbn.
    + destruct RO as [->|RO]; [left; reflexivity|right; lia].
    + intros u y B EU. rewrite version_entry_snoc in EU. replace (u =? N.of_nat (length h) + 1) with false in EU by lia. apply (FR u); [lia|exact EU].
    + intros LT. assert (NE : h <> []) by (intros ->; cbn in LT; lia). unfold commit_on in CO. rewrite <- (version_last h NE) in CO. destruct (version_entry_some h (N.of_nat (length h))) as [p EP]; [lia|]. rewrite EP in CO.
      apply bbind_ok in CO as [[m0 ix0] [B F]]. apply bbind_ok in F as [m1 [F E]]. injection E as -> ->. rewrite (VV _ _ EP) in B.
      assert (G : build_manifest t (Some (e_man p)) (e_idx p) f c = BOk (m0, ix) -> exists p0 f0 m2, version_entry (h ++ [{| e_txn := t; e_cfg := c; e_man := m; e_idx := ix |}]) (N.of_nat (length h) + 1 - 1) = Some p0 /\
        build_manifest t (Some (e_man p0)) (e_idx p0) f0 c = BOk (m2, ix) /\ finish c m2 = BOk m).
      { intros G. exists p, f, m0. split; [|auto]. replace (N.of_nat (length h) + 1 - 1) with (N.of_nat (length h)) by lia. apply version_entry_app, EP. }
      destruct (t_op t) eqn:O; try exact (G B). destruct (version_entry h version) as [o|] eqn:EO; [|discriminate]. injection B as <- <-. exists o, f. split; [apply version_entry_app, EO|].
      split; [apply version_entry_bound in EO; lia|]. auto.
  - destruct (IH v e EV) as [A [B C]]. pose proof (version_entry_bound _ _ _ EV). split; [exact A|]. split.
    + intros u y BU EU. rewrite version_entry_snoc in EU. replace (u =? N.of_nat (length h) + 1) with false in EU by lia. exact (B u y BU EU).
    + intros LT. specialize (C LT). destruct (t_op (e_txn e)); try (destruct C as [p [f0 [m0 [C1 C2]]]]; exists p, f0, m0; split; [apply version_entry_app, C1|exact C2]).
      destruct C as [o [f0 [C1 C2]]]. exists o, f0. split; [apply version_entry_app, C1|exact C2].
Qed.
Lemma checked_version_ext : forall seen f g v e, (forall u, f u = g u) -> checked_version seen f v e -> checked_version seen g v e.
Proof.
  intros seen f g v e E [A [B C]]. split; [exact A|]. split; [intros u y BU EU; rewrite <- E in EU; exact (B u y BU EU)|]. intros LT. specialize (C LT).
  destruct (t_op (e_txn e)); rewrite <- ?E in *; try exact C; (destruct C as [p C]; exists p; rewrite <- E; exact C).
Qed.
Theorem rename_checked : forall skip seen S0 s, reachable (loop_lts skip seen (rename_lts entry (fun x => x = S0))) s ->
  forall v e, r_obj (fst s) (PFinal S0 v) = Some e -> checked_version seen (fun u => r_obj (fst s) (PFinal S0 u)) v e.
Proof.
  intros skip seen S0 s R v e E. destruct (rename_history skip seen S0 s R) as [h [CH [HV _]]]. rewrite HV in E. apply (checked_version_ext seen (version_entry h)); [intros u; symmetry; apply HV|]. exact (checked_history_versions seen h CH v e E).
Qed.
Theorem lock_checked : forall skip seen S0 s, reachable (loop_lts skip seen (lock_lts entry (fun x => x = S0) false)) s ->
  forall v e, k_obj (fst s) (PFinal S0 v) = Some e -> checked_version seen (fun u => k_obj (fst s) (PFinal S0 u)) v e.
Proof.
  intros skip seen S0 s R v e E. destruct (lock_history skip seen S0 s R) as [h [CH [HV _]]]. rewrite HV in E. apply (checked_version_ext seen (version_entry h)); [intros u; symmetry; apply HV|]. exact (checked_history_versions seen h CH v e E).
Qed.
(* the contents an external store leads to *)
Definition content (s : est entry) (v : N) : option entry := match e_ext s v with Some p => e_obj s p | None => None end.
Theorem ext_checked : forall skip seen s, reachable (loop_lts skip seen (ext_lts entry false)) s ->
  forall v e, content (fst s) v = Some e -> checked_version seen (content (fst s)) v e.
Proof.
  intros skip seen [s ws] R. destruct (loop_history skip seen _ _ (ext_simulates entry) (s, ws) R) as [a [h [[W [[J1 [J2 _]] [I2 _]]] [CH [HV _]]]]].
  cbn [fst] in *. assert (HC : forall v, content s v = version_entry h v).
  { intros v. rewrite <- HV, I2. unfold content. destruct (W v) as [[[b sc] z]|] eqn:E; [|rewrite (J1 v E); reflexivity]. cbn. destruct (J2 _ _ _ _ E) as [[K1 K2]|[K1 K2]]; rewrite K1, K2; reflexivity. }
  intros v e E. rewrite HC in E. apply (checked_version_ext seen (version_entry h)); [intros u; symmetry; apply HC|]. exact (checked_history_versions seen h CH v e E).
Qed.
(* C30: the existing versions are 1..n *)
Lemma entries_contiguous : forall h v, version_entry h v <> None <-> 1 <= v <= N.of_nat (length h).
Proof. intros h v. split; [destruct (version_entry h v) eqn:E; [intros _; exact (version_entry_bound _ _ _ E)|contradiction]|]. intros B. destruct (version_entry_some h v B) as [e ->]. discriminate. Qed.
Theorem rename_contiguous : forall skip seen S0 s, reachable (loop_lts skip seen (rename_lts entry (fun x => x = S0))) s ->
  exists n, forall v, r_obj (fst s) (PFinal S0 v) <> None <-> 1 <= v <= n.
Proof. intros skip seen S0 s R. destruct (rename_history skip seen S0 s R) as [h [_ [HV _]]]. exists (N.of_nat (length h)). intros v. rewrite HV. apply entries_contiguous. Qed.
Theorem lock_contiguous : forall skip seen S0 s, reachable (loop_lts skip seen (lock_lts entry (fun x => x = S0) false)) s ->
  exists n, forall v, k_obj (fst s) (PFinal S0 v) <> None <-> 1 <= v <= n.
Proof. intros skip seen S0 s R. destruct (lock_history skip seen S0 s R) as [h [_ [HV _]]]. exists (N.of_nat (length h)). intros v. rewrite HV. apply entries_contiguous. Qed.
Theorem ext_contiguous : forall skip seen s, reachable (loop_lts skip seen (ext_lts entry false)) s ->
  exists n, forall v, (exists x, recorded (fst s) v x) <-> 1 <= v <= n.
Proof.
  intros skip seen s R. destruct (ext_history skip seen s R) as [h [_ [HV _]]]. exists (N.of_nat (length h)). intros v. rewrite <- entries_contiguous. split.
  - intros [x X]. apply HV in X. congruence.
  - intros E. destruct (version_entry h v) as [x|] eqn:EV; [|contradiction]. exists x. apply HV, EV.
Qed.

(* ---- C35: cleanup that keeps the numbers of removed versions taken ---- *)
Definition sim_c (s : cst) (t : ast entry) : Prop :=
  (forall v x, a_vers (c_reg s) v = Some x -> a_vers t v = Some x) /\ (forall v, c_gone s v = true -> a_vers t v <> None) /\
  (forall v, a_vers (c_reg s) v = None -> c_gone s v = false -> a_vers t v = None) /\ (forall a, a_st t a = a_st (c_reg s) a).
Lemma sim_c_status : forall m st g m' st' a x, sim_c {| c_reg := {| a_vers := m; a_st := st |}; c_gone := g |} {| a_vers := m'; a_st := st' |} ->
  sim_c {| c_reg := {| a_vers := m; a_st := upN st a x |}; c_gone := g |} {| a_vers := m'; a_st := upN st' a x |}.
Proof. intros m st g m' st' a x [R1 [R2 [R3 R4]]]. cbn in *. split; [exact R1|]. split; [exact R2|]. split; [exact R3|]. cbn. intros b. destruct (N.eq_dec b a) as [->|n]; up; [reflexivity|apply R4]. Qed.
Theorem clean_simulates : simulates (clean_lts true) (gone_lts true) sim_c.
Proof.
  split.
  - intros [r g] [[I1 I2] I3]. cbn in *. exists r. split; [split; assumption|]. repeat split; cbn; auto. intros v. rewrite I3. discriminate.
  - intros s l s' [m' st'] R ST. cbn [lstep clean_lts] in ST. inversion ST; subst.
    + inversion H; subst; pose proof R as [R1 [R2 [R3 R4]]]; cbn in R1, R2, R3, R4.
      * exists {| a_vers := m'; a_st := upN st' a (SActive v x) |}. split; [apply sim_c_status, R|]. left. left. constructor. rewrite R4. assumption.
      * assert (GV : g v = false) by (destruct (g v) eqn:G; [|reflexivity]; pose proof (H0 eq_refl v G) as C; cbn in C; up; discriminate).
        exists {| a_vers := upN m' v (Some x); a_st := upN st' a (SWon v x) |}. split; [|left; left; constructor; [rewrite R4; assumption|apply R3; assumption]].
        split; [|split; [|split]]; cbn.
        -- intros u y E. destruct (N.eq_dec u v) as [->|n]; up; [exact E|apply R1, E].
        -- intros u E. destruct (N.eq_dec u v) as [->|n]; up; [discriminate|apply R2, E].
        -- intros u E G. destruct (N.eq_dec u v) as [->|n]; up; [discriminate|apply R3; assumption].
        -- intros b. destruct (N.eq_dec b a) as [->|n]; up; [reflexivity|apply R4].
      * exists {| a_vers := m'; a_st := upN st' a SDone |}. split; [apply sim_c_status, R|]. left. left. econstructor. rewrite R4. eassumption.
      * exists {| a_vers := m'; a_st := upN st' a SDone |}. split; [apply sim_c_status, R|]. left. left. econstructor. rewrite R4. eassumption.
      * exists {| a_vers := m'; a_st := upN st' a SDone |}. split; [apply sim_c_status, R|]. left. left. econstructor. rewrite R4. eassumption.
      * exists {| a_vers := m'; a_st := st' |}. split; [exact R|]. left. left. constructor. apply R1. assumption.
      * exists {| a_vers := m'; a_st := st' |}. split; [exact R|]. left. left. constructor. destruct (m v) as [y|] eqn:E; [|contradiction]. rewrite (R1 v y E). discriminate.
    + exists {| a_vers := m'; a_st := st' |}. split; [|right; auto]. destruct R as [R1 [R2 [R3 R4]]]. cbn in *. split; [|split; [|split]]; cbn.
      * intros u y E. destruct (N.eq_dec u v) as [->|n]; up; [discriminate|apply R1, E].
      * intros u E. destruct (N.eq_dec u v) as [->|n]; up; [rewrite (R1 _ _ H); discriminate|apply R2, E].
      * intros u E G. destruct (N.eq_dec u v) as [->|n]; up; [discriminate|apply R3; assumption].
      * exact R4.
    + exists {| a_vers := m'; a_st := st' |}. split; [exact R|]. left. right. split; [reflexivity|]. eauto.
Qed.
(* ---- C76: such numbers are never reused ---- *)
Lemma loop_project : forall skip seen (H : lts (label entry)) s tr s', run (loop_lts skip seen H) s tr s' -> run H (fst s) tr (fst s').
Proof.
  intros skip seen H s tr s' X. induction X as [s|s tr s1 s2 X IH ST|s tr s1 l s2 X IH ST]; [constructor| |]; cbn [lstep loop_lts] in ST; inversion ST; subst; cbn [fst] in *.
  - eapply run_tau; eassumption.
  - exact IH.
  - eapply run_lab; eassumption.
  - eapply run_lab; eassumption.
Qed.
Theorem gone_immutable : forall b, immutable (gone_lts b).
Proof.
  intros b s0 tr s I X.
  assert (K : forall v x, In (LRead v x) tr -> a_vers s v = Some x).
  { induction X as [s|s tr s1 s2 X IH ST|s tr s1 l s2 X IH ST]; [intros v x []| |].
    - intros v x J. specialize (IH I v x J). destruct ST as [ST|[_ [w [E _]]]]; [|discriminate]. cbn in ST. inversion ST; subst; cbn in *. destruct (N.eq_dec v v0) as [->|n]; [congruence|]. up. exact IH.
    - intros v x J. apply In_snoc in J. specialize (IH I v x). destruct ST as [ST|[_ [w [E ->]]]]; cbn in *.
      + destruct J as [J|<-]; [|inversion ST; subst; assumption]. specialize (IH J). inversion ST; subst; cbn in *; exact IH.
      + destruct J as [J|J]; [exact (IH J)|congruence]. }
  intros v x y J1 J2. pose proof (K _ _ J1). pose proof (K _ _ J2). congruence.
Qed.
Theorem kept_numbers_immutable : forall skip seen, immutable (loop_lts skip seen (clean_lts true)).
Proof.
  intros skip seen s0 tr s [I _] X. destruct (simulates_traces _ _ _ clean_simulates) as [_ [T _]]. exact (T (gone_immutable true) (fst s0) tr (fst s) I (loop_project _ _ _ _ _ _ X)).
Qed.

(* If no first check meets a removed version, every commit is checked against all the
   transactions since the version it read that are still there. *)
Theorem remaining_checked : forall seen s, reachable (loop_lts false seen (clean_lts true)) s ->
  forall i t v u y, snd s i = WDone t v -> t_read t < u < v -> a_vers (c_reg (fst s)) u = Some y -> conflicts_with (t_op t) (t_op (seen (e_txn y))) = false.
Proof.
  intros seen s R i t v u y D B E. destruct (loop_history_gone true false seen _ _ (fun _ => eq_refl) clean_simulates s R) as [a [h [[R1 _] [CH [HV HD]]]]].
  destruct (HD i t v D) as [e [EV T]]. apply R1 in E. rewrite HV in E.
  assert (G : forall h, checked_history seen h -> forall v e u y, version_entry h v = Some e -> t_read (e_txn e) < u < v -> version_entry h u = Some y -> conflicts_with (t_op (e_txn e)) (t_op (seen (e_txn y))) = false).
  { clear. intros h CH. induction CH as [|h t c f m ix CH IH RO FR CO]; intros v e u y EV B EU; [apply version_entry_bound in EV; cbn in EV; lia|].
    rewrite version_entry_snoc in EV, EU. destruct (v =? N.of_nat (length h) + 1) eqn:E1.
    - injection EV as <-. cbn in *. replace (u =? N.of_nat (length h) + 1) with false in EU by lia. apply (FR u); [lia|exact EU].
    - pose proof (version_entry_bound _ _ _ EV). replace (u =? N.of_nat (length h) + 1) with false in EU by lia. exact (IH v e u y EV B EU). }
  rewrite <- T. apply (G h CH v e u y EV); [rewrite T; exact B|exact E].
Qed.
(* C30: a version that can be read never changes *)
Theorem loop_immutable : forall skip seen S0,
  immutable (loop_lts skip seen (rename_lts entry (fun x => x = S0))) /\ immutable (loop_lts skip seen (lock_lts entry (fun x => x = S0) false)) /\ immutable (loop_lts skip seen (ext_lts entry false)).
Proof.
  intros skip seen S0. split; [|split]; intros s0 tr s [I _] X; apply loop_project in X.
  - exact (proj1 (proj2 (rename_claims entry S0)) (fst s0) tr (fst s) I X).
  - exact (proj1 (proj2 (lock_claims entry S0)) (fst s0) tr (fst s) I X).
  - exact (proj1 (proj2 (ext_claims entry)) (fst s0) tr (fst s) I X).
Qed.
