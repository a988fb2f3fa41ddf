(* C38: fragment ids. *)
From Coq Require Import List Arith NArith ZArith Bool Lia Permutation.
From Coq Require Import ZifyBool ZifyN ZifyNat.
From Verif Require Import Lib AMap TreeMapModel SerdeModel TxnModel TxnSpec TxnLemmas.
Import ListNotations.
Local Open Scope N_scope.

Lemma chosen_explicit : forall l, chosen_ids l = explicit_ids l.
Proof. reflexivity. Qed.

Definition man_wf (m : manifest) : Prop := sinc (frag_ids m) /\ (forall i, In i (frag_ids m) -> i <= m_max m) /\ m_max m < two32.

Lemma update_frag_id : forall upd f, f_id (update_frag upd f) = f_id f.
Proof.
  unfold update_frag. induction upd as [|u t IH]; intros f; auto. cbn [fold_left]. rewrite IH.
  destruct (f_id u =? f_id f) eqn:E; auto. lia.
Qed.
Lemma update_frag_ids : forall upd l, map f_id (map (update_frag upd) l) = map f_id l.
Proof. intros. rewrite map_map. apply map_ext. apply update_frag_id. Qed.
Definition kept (removed : list N) (updated fs : list fragment) : list fragment :=
  map (fun f => match find (fun u => f_id u =? f_id f) updated with Some u => u | None => f end)
      (filter (fun f => negb (memN (f_id f) removed)) fs).
Lemma kept_ids : forall removed updated fs, map f_id (kept removed updated fs) = map f_id (filter (fun f => negb (memN (f_id f) removed)) fs).
Proof.
  intros. unfold kept. rewrite map_map. apply map_ext. intros f. destruct (find _ updated) eqn:E; auto.
  apply find_some in E as [_ E]. lia.
Qed.
Lemma NoDup_filter_ids : forall p l, NoDup (map f_id l) -> NoDup (map f_id (filter p l)).
Proof.
  intros p l. induction l as [|f t IH]; intros H; auto. inversion H; subst. cbn [filter]. destruct (p f); auto. cbn [map]. constructor; auto.
  intros C. apply H2. apply in_map_iff in C as [g [C1 C2]]. apply filter_In in C2 as [C2 _]. rewrite <- C1. now apply in_map.
Qed.
Lemma replace_ids : forall fs r l, replace_all fs r = BOk l -> map f_id l = map fst r /\ (forall i, In i (map fst r) -> In i (map f_id fs)).
Proof.
  intros fs. induction r as [|[i nf] t IH]; intros l H; cbn [replace_all] in H.
  - injection H as <-. split; auto; intros ? [].
  - destruct (find_fragment fs i) as [f|] eqn:E; [|discriminate]. apply bbind_ok in H as [f' [H1 H]]. apply bbind_ok in H as [l' [H2 H]].
    injection H as <-. destruct (IH _ H2) as [I1 I2]. unfold find_fragment in E. apply find_some in E as [E1 E2].
    assert (f_id f' = i). { unfold replace_one in H1. destruct (list_eqb _ _ _); [discriminate|]. injection H1 as <-. cbn. lia. }
    cbn [map fst]. rewrite I1, H. split; auto. intros j [<-|Hj]; auto. assert (f_id f = i) as <- by lia. now apply in_map.
Qed.

(* the loop over rewrite groups *)
Lemma explicit_app : forall a b, explicit_ids (a ++ b) = explicit_ids a ++ explicit_ids b.
Proof. intros. unfold explicit_ids. now rewrite map_app, filter_app. Qed.

Lemma NoDup_app_iff' : forall (a b : list N), NoDup (a ++ b) <-> NoDup a /\ NoDup b /\ (forall x, In x a -> In x b -> False).
Proof.
  induction a as [|x a IH]; intros b; cbn [app]; split.
  - intros H. repeat split; auto. constructor.
  - intros [_ [H _]]. auto.
  - intros H. inversion H; subst. apply IH in H3 as [H3 [H4 H5]]. repeat split; auto.
    + constructor; auto. intros C. apply H2. apply in_app_iff. auto.
    + intros y [<-|Hy] Hb; [apply H2, in_app_iff; auto|eauto].
  - intros [H1 [H2 H3]]. inversion H1; subst. constructor.
    + intros C. apply in_app_iff in C as [C|C]; auto. apply (H3 x); auto. now left.
    + apply IH. repeat split; auto. intros y Hy Hb. apply (H3 y); auto. now right.
Qed.

Lemma rewrite_loop_ids : forall groups fs next fs' next', handle_rewrite_fragments fs groups next = BOk (fs', next') ->
  NoDup (map f_id fs) -> (forall f, In f fs -> f_id f < next) -> NoDup (explicit_ids (flat_map rg_new groups)) ->
  (forall i, In i (explicit_ids (flat_map rg_new groups)) -> i < next /\ ~ In i (map f_id fs)) ->
  NoDup (map f_id fs') /\ (forall i, In i (map f_id fs') -> In i (map f_id fs) \/ In i (explicit_ids (flat_map rg_new groups)) \/ next <= i).
Proof.
  induction groups as [|g t IH]; intros fs next fs' next' H Hn Hl He Hx; cbn [handle_rewrite_fragments] in H.
  - injection H as <- <-. auto.
  - destruct (rg_old g) as [|o0 olds] eqn:Eo; [discriminate|].
    destruct (position (fun f => f_id f =? f_id o0) fs) as [start|] eqn:Ep; [|discriminate].
    destruct (contiguous (skipn (S start) fs) olds) as [c|] eqn:Ec; [|discriminate].
    cbn [flat_map] in He, Hx. rewrite explicit_app in He, Hx. apply NoDup_app_iff' in He as [He1 [He2 He3]].
    pose proof (with_ids_next (rg_new g) next) as Hnx. pose proof (with_ids_In (rg_new g) next) as Hin.
    pose proof (with_ids_NoDup (rg_new g) next He1 (fun i Hi => proj1 (Hx i (proj2 (in_app_iff _ _ _) (or_introl Hi))))) as Hnd.
    destruct (fragments_with_ids (rg_new g) next) as [new nx] eqn:Ew. cbn [fst snd] in *.
    set (fs2 := if c then _ else _) in H.
    assert (Hnew : forall i, In i (map f_id new) -> In i (explicit_ids (rg_new g)) \/ next <= i < nx).
    { intros i Hi. apply in_map_iff in Hi as [x [<- Hi]]. destruct (Hin x Hi) as [f [Hf [[C1 C2]|[C1 [j [C2 C3]]]]]]; subst x.
      - left. apply explicit_In. eauto.
      - right. cbn. lia. }
    assert (Hdisj : forall i, In i (map f_id fs) -> In i (map f_id new) -> False).
    { intros i H1 H2. destruct (Hnew i H2) as [C|C].
      - apply (proj2 (Hx i (proj2 (in_app_iff _ _ _) (or_introl C))) H1).
      - apply in_map_iff in H1 as [f [<- H1]]. specialize (Hl f H1). lia. }
    (* what the spliced list contains *)
    assert (Hfs2 : NoDup (map f_id fs2) /\ (forall i, In i (map f_id fs2) -> In i (map f_id fs) \/ In i (map f_id new))).
    { unfold fs2. destruct c.
      - rewrite !map_app. pose proof (firstn_skipn start fs) as F1.
        assert (F2 : skipn start fs = firstn (length (o0 :: olds)) (skipn start fs) ++ skipn (start + length (o0 :: olds)) fs)
          by (rewrite <- skipn_skipn'; now rewrite firstn_skipn).
        rewrite F2 in F1. rewrite <- F1 in Hn. rewrite !map_app in Hn. apply NoDup_app_iff' in Hn as [N1 [N2 N3]]. apply NoDup_app_iff' in N2 as [N4 [N5 N6]].
        assert (I1 : forall i, In i (map f_id (firstn start fs)) -> In i (map f_id fs)) by (intros i Hi; rewrite <- F1, map_app; apply in_app_iff; auto).
        assert (I2 : forall i, In i (map f_id (skipn (start + length (o0 :: olds)) fs)) -> In i (map f_id fs))
          by (intros i Hi; rewrite <- F1, !map_app; apply in_app_iff; right; apply in_app_iff; auto).
        split.
        + apply NoDup_app_iff'. split; auto. split.
          * apply NoDup_app_iff'. split; auto. split; auto. intros i A1 A2. eauto.
          * intros i A1 A2. apply in_app_iff in A2 as [A2|A2]; [eauto|]. apply (N3 i A1). apply in_app_iff. auto.
        + intros i Hi. apply in_app_iff in Hi as [Hi|Hi]; auto. apply in_app_iff in Hi as [Hi|Hi]; auto.
      - rewrite map_app.
        assert (I1 : forall i, In i (map f_id (filter (fun f => negb (memN (f_id f) (map f_id (o0 :: olds)))) fs)) -> In i (map f_id fs)).
        { intros i Hi. apply in_map_iff in Hi as [f [<- Hi]]. apply filter_In in Hi as [Hi _]. now apply in_map. }
        split.
        + apply NoDup_app_iff'. split; [now apply NoDup_filter_ids|]. split; auto. intros i A1 A2. eauto.
        + intros i Hi. apply in_app_iff in Hi as [Hi|Hi]; auto. }
    destruct Hfs2 as [D1 D2].
    destruct (IH fs2 nx fs' next' H D1) as [R1 R2].
    + intros f Hf. destruct (D2 (f_id f) (in_map _ _ _ Hf)) as [C|C].
      * apply in_map_iff in C as [f' [E C]]. rewrite <- E. specialize (Hl f' C). lia.
      * destruct (Hnew _ C) as [C2|C2]; [|lia]. destruct (Hx (f_id f) (proj2 (in_app_iff _ _ _) (or_introl C2))). lia.
    + exact He2.
    + intros i Hi. destruct (Hx i (proj2 (in_app_iff _ _ _) (or_intror Hi))) as [X1 X2]. split; [lia|]. intros C.
      destruct (D2 i C) as [C2|C2]; auto. destruct (Hnew i C2) as [C3|C3]; [eauto|lia].
    + split; auto. intros i Hi. cbn [flat_map]. rewrite explicit_app, in_app_iff.
      destruct (R2 i Hi) as [C|[C|C]]; auto; [|right; right; lia]. destruct (D2 i C) as [C2|C2]; auto. destruct (Hnew i C2) as [C3|C3]; auto. right; right; lia.
Qed.

(* the next id exceeds everything in the manifest *)
Lemma next_id_above : forall o m, man_wf m -> is_reset o = false ->
  (forall i, In i (frag_ids m) -> i < next_id o (Some m)) /\ (forall i, i <> 0 -> i <= m_max m -> i < next_id o (Some m)) /\
  (next_id o (Some m) <> 0 -> m_max m < next_id o (Some m)).
Proof.
  intros o m [W1 [W2 W3]] Hr. assert (next_id o (Some m) = match max_fragment_id m with Some i => i + 1 | None => 0 end) as -> by (destruct o; cbn in *; auto; discriminate).
  unfold max_fragment_id. destruct (m_max m =? 0) eqn:E.
  - assert (m_max m = 0) by lia. unfold frag_ids in *. destruct (m_fragments m) as [|f t] eqn:Ef.
    + cbn. split; [tauto|]. split; [lia|]. congruence.
    + rewrite <- Ef in *. split; [|split].
      * intros i Hi. pose proof (maxN_bound _ _ Hi). lia.
      * lia.
      * lia.
  - repeat split; try lia. intros i Hi. specialize (W2 i Hi). lia.
Qed.

(* ids after one operation on a well-formed manifest *)
Lemma apply_op_ids : forall o m sch ixs nr fs ixs' nr', man_wf m -> is_reset o = false ->
  match o with
  | Append l | Update _ _ l => NoDup (chosen_ids l) /\ forall i, In i (chosen_ids l) -> ~ In i (frag_ids m) /\ i <= m_max m
  | Rewrite gs _ => NoDup (chosen_ids (flat_map rg_new gs)) /\ forall i, In i (chosen_ids (flat_map rg_new gs)) -> ~ In i (frag_ids m) /\ i <= m_max m
  | Merge l _ => NoDup (map f_id l) /\ (forall i, In i (map f_id l) -> In i (frag_ids m))
  | DataReplacement r => NoDup (map fst r)
  | _ => True
  end ->
  apply_op o (Some m) sch ixs (next_id o (Some m)) nr = BOk (fs, ixs', nr') ->
  NoDup (map f_id fs) /\
  forall i, In i (map f_id fs) -> In i (frag_ids m) \/ In i (chosen_ids (new_fragments o)) \/ next_id o (Some m) <= i.
Proof.
  intros o m sch ixs nr fs ixs' nr' W Hr Hh H.
  destruct (next_id_above o m W Hr) as [X1 [X2 _]]. assert (ND : NoDup (frag_ids m)) by (apply sinc_NoDup, W).
  assert (Happ : forall l base new nr0, NoDup (chosen_ids l) -> (forall i, In i (chosen_ids l) -> ~ In i (frag_ids m) /\ i <= m_max m) ->
    NoDup (map f_id base) -> (forall i, In i (map f_id base) -> In i (frag_ids m)) ->
    with_row_ids nr (fst (fragments_with_ids l (next_id o (Some m)))) = BOk (new, nr0) ->
    NoDup (map f_id (base ++ new)) /\ forall i, In i (map f_id (base ++ new)) -> In i (frag_ids m) \/ In i (chosen_ids l) \/ next_id o (Some m) <= i).
  { intros l base new nr0 L1 L2 L3 L4 L5. apply with_row_ids_ids in L5. rewrite map_app, L5.
    assert (Hl : forall i, In i (explicit_ids l) -> i < next_id o (Some m)).
    { intros i Hi. apply X2; [now apply explicit_In in Hi|]. now apply L2. }
    pose proof (with_ids_NoDup l _ L1 Hl) as N1.
    assert (Hn : forall i, In i (map f_id (fst (fragments_with_ids l (next_id o (Some m))))) -> In i (chosen_ids l) \/ next_id o (Some m) <= i).
    { intros i Hi. apply in_map_iff in Hi as [g [<- Hi]]. destruct (with_ids_In _ _ _ Hi) as [f [Hf [[C1 C2]|[C1 [j [C2 C3]]]]]]; subst g.
      - left. apply (explicit_In l). eauto.
      - right. cbn. lia. }
    split.
    - apply NoDup_app_iff'. split; auto. split; auto. intros i A1 A2. apply L4 in A1. destruct (Hn i A2) as [C|C]; [exact (proj1 (L2 i C) A1)|]. specialize (X1 i A1). lia.
    - intros i Hi. apply in_app_iff in Hi as [Hi|Hi]; auto. }
  assert (Hsub : forall fs0 : list fragment, map f_id fs0 = map f_id (m_fragments m) -> NoDup (map f_id fs0) /\
    forall i, In i (map f_id fs0) -> In i (frag_ids m) \/ In i (chosen_ids (new_fragments o)) \/ next_id o (Some m) <= i).
  { intros fs0 E. rewrite E. split; auto. }
  destruct o; cbn [apply_op is_reset] in *; try discriminate.
  - apply bbind_ok in H as [[new nr0] [H1 H2]]. injection H2 as <- <- <-. destruct Hh as [L1 L2]. eapply Happ; eauto.
  - injection H as <- <- <-. rewrite update_frag_ids. split; [now apply NoDup_filter_ids|]. intros i Hi. left.
    apply in_map_iff in Hi as [f [<- Hi]]. apply filter_In in Hi as [Hi _]. now apply in_map.
  - injection H as <- <- <-. now apply Hsub.
  - apply bbind_ok in H as [[fs2 nx] [H1 H2]]. apply bbind_ok in H2 as [ix2 [H2 H3]]. injection H3 as <- <- <-.
    destruct Hh as [L1 L2]. eapply (rewrite_loop_ids groups (m_fragments m)); eauto.
    + intros f Hf. apply X1. now apply in_map.
    + intros i Hi. split; [apply X2; [now apply explicit_In in Hi|now apply L2]|now apply L2].
  - destruct (negb (same_fields replacements)); [discriminate|]. apply bbind_ok in H as [new [H1 H2]]. injection H2 as <- <- <-.
    destruct (replace_ids _ _ _ H1) as [I1 I2]. rewrite map_app, I1. split.
    + apply NoDup_app_iff'. split; auto. split; [now apply NoDup_filter_ids|]. intros i A1 A2. apply in_map_iff in A2 as [f [<- A2]].
      apply filter_In in A2 as [_ A2]. apply negb_true_iff, memN_false in A2. auto.
    + intros i Hi. left. apply in_app_iff in Hi as [Hi|Hi]; [now apply I2|]. apply in_map_iff in Hi as [f [<- Hi]]. apply filter_In in Hi as [Hi _]. now apply in_map.
  - injection H as <- <- <-. split; [tauto|]. intros i Hi. left. now apply Hh.
  - injection H as <- <- <-. now apply Hsub.
  - apply bbind_ok in H as [[new nr0] [H1 H2]]. injection H2 as <- <- <-. destruct Hh as [L1 L2]. fold (kept removed updated (m_fragments m)).
    eapply Happ; eauto; rewrite kept_ids; [now apply NoDup_filter_ids|]. intros i Hi. apply in_map_iff in Hi as [f [<- Hi]]. apply filter_In in Hi as [Hi _]. now apply in_map.
  - injection H as <- <- <-. apply Hsub. rewrite map_map. reflexivity.
  - injection H as <- <- <-. now apply Hsub.
Qed.

(* ---- histories ---- *)
Lemma last_snoc : forall h e, last_entry (h ++ [e]) = Some e.
Proof. intros. unfold last_entry. rewrite app_length. cbn [length]. rewrite nth_error_app2 by lia. replace (length h + 1 - 1 - length h)%nat with 0%nat by lia. reflexivity. Qed.
Lemma latest_snoc : forall h e, latest (h ++ [e]) = Some (e_man e).
Proof. intros. unfold latest. now rewrite last_snoc. Qed.
Lemma last_nil : last_entry [] = None.
Proof. reflexivity. Qed.
Lemma last_In : forall h e, last_entry h = Some e -> In e h.
Proof. intros h e H. unfold last_entry in H. now apply nth_error_In in H. Qed.
Lemma latest_None : forall h, latest h = None -> h = [].
Proof.
  intros h H. destruct h as [|e t]; auto. exfalso. unfold latest, last_entry in H.
  destruct (nth_error (e :: t) (length (e :: t) - 1)) eqn:E; [discriminate|]. apply nth_error_None in E. cbn [length] in E. lia.
Qed.
Lemma latest_last : forall h m, latest h = Some m -> exists e, last_entry h = Some e /\ e_man e = m.
Proof. intros h m H. unfold latest in H. destruct (last_entry h) as [e|]; [|discriminate]. injection H as <-. eauto. Qed.

Lemma history_snoc : forall h e, history (h ++ [e]) ->
  history h /\ (h = [] \/ 1 <= t_read (e_txn e) <= N.of_nat (length h)) /\
  Forall (fun e' => conflicts_with (t_op (e_txn e)) (t_op (e_txn e')) = false) (skipn (N.to_nat (t_read (e_txn e))) h) /\
  exists file, commit_on h (e_txn e) file (e_cfg e) = BOk (e_man e, e_idx e).
Proof.
  intros h e H. inversion H as [E|h' t c file m ix Hh Hr Hc Hb E].
  - destruct h; discriminate.
  - apply app_inj_tail in E as [-> <-]. cbn. eauto.
Qed.
Lemma history_prefix : forall h1 h2, history (h1 ++ h2) -> history h1.
Proof.
  intros h1 h2. revert h1. induction h2 as [|e t IH] using rev_ind; intros h1 H.
  - now rewrite app_nil_r in H.
  - rewrite app_assoc in H. apply history_snoc in H as [H _]. auto.
Qed.
Lemma all_snoc : forall P h e, all_entries P (h ++ [e]) -> all_entries P h /\ P h (e_txn e).
Proof.
  intros P h e H. split.
  - intros h1 e1 h2 ->. apply (H h1 e1 (h2 ++ [e])). now rewrite <- app_assoc.
  - now apply (H h e []).
Qed.

(* the manifest written is the one built on the latest version, with the flags
   of [finish] *)
Lemma commit_inv : forall h t file c m ix, commit_on h t file c = BOk (m, ix) ->
  (exists v e old, t_op t = Restore v /\ last_entry h = Some e /\ version_entry h v = Some old /\ ix = e_idx old /\
     finish c (set_version (e_man old) (m_version (e_man e) + 1) file) = BOk m) \/
  (exists m0, build_manifest t (latest h) (match last_entry h with Some e => e_idx e | None => [] end) file c = BOk (m0, ix) /\ finish c m0 = BOk m /\
     forall v, t_op t <> Restore v).
Proof.
  intros h t file c m ix H. unfold commit_on in H. apply bbind_ok in H as [[m0 ix0] [H1 H2]]. apply bbind_ok in H2 as [m1 [H2 H3]]. injection H3 as <- <-.
  unfold latest. destruct (last_entry h) as [e|] eqn:E; cbn [option_map].
  - destruct (t_op t) eqn:Eo.
    all: try (right; exists m0; split; [exact H1|]; split; [exact H2|discriminate]).
    left. destruct (version_entry h version) as [old|] eqn:Ev; [|discriminate]. injection H1 as <- <-. exists version, e, old. auto.
  - right. exists m0. split; [exact H1|]. split; auto. intros v Hv. unfold build_manifest, op_schema in H1. rewrite Hv in H1. cbn in H1. discriminate.
Qed.
Lemma version_In : forall h v e, version_entry h v = Some e -> In e h.
Proof. intros h v e H. unfold version_entry in H. destruct (v =? 0); [discriminate|]. now apply nth_error_In in H. Qed.

Lemma finish_wf : forall c m m', finish c m = BOk m' -> sinc (frag_ids m) -> m_max m < two32 -> man_wf m'.
Proof.
  intros c m m' H Hs Hm. pose proof (finish_inv c m m' H) as [E1 [_ [_ [_ [_ [_ [_ [E2 _]]]]]]]]. unfold man_wf, frag_ids in *. rewrite E1, E2.
  split; auto. split.
  - intros i Hi. apply maxN_bound in Hi. lia.
  - unfold finish in H. apply bbind_ok in H as [[rf wf] [_ H]]. apply bbind_ok in H as [mx [H _]]. unfold update_max_fragment_id in H.
    destruct (two32 <=? maxN (map f_id (m_fragments m))) eqn:E; [discriminate|]. lia.
Qed.

(* induction over the versions after version r *)
Lemma interval_ind : forall (H : list entry -> Prop) (Q : op -> Prop) (P : manifest -> manifest -> Prop),
  (forall h e, H (h ++ [e]) -> H h) -> (forall m, P m m) ->
  (forall h e m0 m, H (h ++ [e]) -> Q (t_op (e_txn e)) -> latest h = Some m -> P m0 m -> P m0 (e_man e)) ->
  forall h r m0, H h -> Forall (fun e => Q (t_op (e_txn e))) (skipn (N.to_nat r) h) -> man_at h r = Some m0 ->
  forall m, latest h = Some m -> P m0 m.
Proof.
  intros H Q P Hpre Hrefl Hstep. induction h as [|e h IH] using rev_ind; intros r m0 Hh Hq Hm m Hl; [discriminate|].
  rewrite latest_snoc in Hl. injection Hl as <-.
  unfold man_at, version_entry in Hm. destruct (r =? 0) eqn:E0; [discriminate|].
  destruct (Nat.lt_ge_cases (N.to_nat r - 1) (length h)) as [L|L].
  - rewrite nth_error_app1 in Hm by auto.
    assert (Hr : (N.to_nat r <= length h)%nat) by lia.
    rewrite skipn_app in Hq. apply Forall_app in Hq as [Hq1 Hq2]. replace (N.to_nat r - length h)%nat with 0%nat in Hq2 by lia.
    cbn [skipn] in Hq2. inversion Hq2; subst.
    assert (exists m1, latest h = Some m1) as [m1 Hm1].
    { unfold latest. destruct (last_entry h) eqn:El; [cbn; eauto|]. unfold last_entry in El. apply nth_error_None in El. lia. }
    eapply Hstep; eauto. eapply (IH r); eauto. unfold man_at, version_entry. rewrite E0. exact Hm.
  - rewrite nth_error_app2 in Hm by auto. destruct (N.to_nat r - 1 - length h)%nat as [|k] eqn:Ek.
    + cbn in Hm. injection Hm as <-. apply Hrefl.
    + cbn in Hm. destruct k; discriminate.
Qed.

(* operations that leave the fragment list alone *)
Definition quiet (o : op) : Prop := match o with CreateIndex _ _ | ReserveFragments _ | UpdateConfig _ _ _ _ => True | _ => False end.

Definition good (h : list entry) : Prop := history h /\ all_entries ids_honest h.
Lemma good_prefix : forall h e, good (h ++ [e]) -> good h.
Proof. intros h e [H1 H2]. split; [now apply history_snoc in H1|now apply all_snoc in H2]. Qed.

Lemma quiet_keeps : forall h t file c m ix b, commit_on h t file c = BOk (m, ix) -> quiet (t_op t) -> latest h = Some b -> sinc (frag_ids b) ->
  m_fragments m = m_fragments b.
Proof.
  intros h t file c m ix b H Q L W. apply commit_inv in H as [[v [le [old [E1 _]]]]|[m0 [E1 [E2 E3]]]].
  - rewrite E1 in Q. destruct Q.
  - apply build_inv in E1 as [sch [nr [fs [nr' [B1 [B2 [B3 [B4 _]]]]]]]]. apply finish_inv in E2 as [F1 _]. rewrite F1, B4. rewrite L in B3.
    destruct (t_op t); cbn [quiet apply_op] in *; try tauto; injection B3 as <- _ _; apply sort_frags_id, sinc_nondec, W.
Qed.

(* the conditions on one operation, against the version it is committed on *)
Definition op_ids_ok (o : op) (m : manifest) : Prop :=
  match o with
  | Append l | Update _ _ l => NoDup (chosen_ids l) /\ forall i, In i (chosen_ids l) -> ~ In i (frag_ids m) /\ i <= m_max m
  | Rewrite gs _ => NoDup (chosen_ids (flat_map rg_new gs)) /\ forall i, In i (chosen_ids (flat_map rg_new gs)) -> ~ In i (frag_ids m) /\ i <= m_max m
  | Merge l _ => NoDup (map f_id l) /\ (forall i, In i (map f_id l) -> In i (frag_ids m))
  | DataReplacement r => NoDup (map fst r)
  | _ => True
  end.
Lemma quiet_interval : forall h r m0 m, history h -> (forall e, In e h -> man_wf (e_man e)) ->
  Forall (fun e => quiet (t_op (e_txn e))) (skipn (N.to_nat r) h) -> man_at h r = Some m0 -> latest h = Some m -> m_fragments m0 = m_fragments m.
Proof.
  intros h r m0 m Hh W Hq H0 Hm.
  eapply (interval_ind (fun h' => history h' /\ forall x, In x h' -> In x h) quiet (fun a b => m_fragments a = m_fragments b)); eauto.
  - intros h1 e1 [A1 A2]. split; [now apply history_snoc in A1|]. intros x Hx. apply A2, in_app_iff. now left.
  - intros h1 e1 a b [A1 A2] Q1 L1 F1. rewrite F1. clear F1. destruct (latest_last _ _ L1) as [lb [L2 <-]].
    assert (W1 : man_wf (e_man lb)) by (apply W, A2, in_app_iff; left; now apply last_In).
    apply history_snoc in A1 as [_ [_ [_ [file1 A1]]]]. symmetry. eapply quiet_keeps; eauto. apply W1.
Qed.
Lemma op_honest : forall h e m, good (h ++ [e]) -> (forall e, In e h -> man_wf (e_man e)) -> latest h = Some m -> op_ids_ok (t_op (e_txn e)) m.
Proof.
  intros h e m G IH El. pose proof (good_prefix _ _ G) as Gp. destruct G as [Gh Ga]. apply all_snoc in Ga as [_ Hon]. apply history_snoc in Gh as [Gh [Hr [Hc _]]].
  destruct (latest_last _ _ El) as [le [El2 <-]]. pose proof (IH le (last_In _ _ El2)) as W.
  assert (Hch : forall l, (NoDup (chosen_ids l) /\ forall i, In i (chosen_ids l) -> ~ used h i /\ exists m, latest h = Some m /\ i <= m_max m) ->
     NoDup (chosen_ids l) /\ forall i, In i (chosen_ids l) -> ~ In i (frag_ids (e_man le)) /\ i <= m_max (e_man le)).
  { intros l [H1 H2]. split; auto. intros i Hi. destruct (H2 i Hi) as [U [m1 [M1 M2]]]. rewrite El in M1. injection M1 as <-. split; auto.
    intros C. apply U. exists le. split; auto. now apply last_In. }
  unfold ids_honest in Hon. unfold op_ids_ok. destruct (t_op (e_txn e)) eqn:Eo; auto.
  destruct Hon as [m1 [M1 M2]]. rewrite M2.
  assert (m_fragments m1 = m_fragments (e_man le)) as Ef.
  { eapply quiet_interval; eauto. apply Forall_forall. intros x Hx. rewrite Forall_forall in Hc. specialize (Hc x Hx). cbn in Hc. destruct (t_op (e_txn x)); try discriminate; exact I. }
  unfold frag_ids. rewrite Ef. split; [apply sinc_NoDup, W|auto].
Qed.

(* every version of an honest history is well formed *)
Lemma history_wf : forall h, good h -> forall e, In e h -> man_wf (e_man e).
Proof.
  induction h as [|e h IH] using rev_ind; intros G e' He; [destruct He|].
  specialize (IH (good_prefix _ _ G)). apply in_app_iff in He as [He|[<-|[]]]; auto.
  pose proof (good_prefix _ _ G) as Gp. pose proof (fun m => op_honest h e m G IH) as OH.
  destruct G as [Gh Ga]. apply all_snoc in Ga as [_ Hon]. apply history_snoc in Gh as [Gh [Hr [Hc [file Hb]]]].
  apply commit_inv in Hb as [[v [le [old [E1 [E2 [E3 [E4 E5]]]]]]]|[m0 [E1 [E2 E3]]]].
  - eapply finish_wf; eauto; unfold frag_ids; cbn; apply (IH old (version_In _ _ _ E3)).
  - destruct (build_inv _ _ _ _ _ _ _ E1) as [sch [nr [fs [nr' [B1 [B2 [B3 [B4 [B5 [B6 [B7 _]]]]]]]]]]].
    assert (Hmax : cur_max (latest h) < two32).
    { unfold latest. destruct (last_entry h) as [le|] eqn:El; cbn; [|reflexivity]. apply (IH le (last_In _ _ El)). }
    eapply finish_wf; [exact E2| |].
    2:{ destruct (t_op (e_txn e)); try (rewrite B6; lia). }
    unfold frag_ids. rewrite B4. apply sorted_NoDup_sinc; [apply sort_frags_sorted|].
    eapply Permutation_NoDup; [apply Permutation_map, Permutation_sym, sort_frags_perm|].
    (* NoDup of the unsorted list *)
    destruct (latest h) as [m|] eqn:El.
    + destruct (latest_last _ _ El) as [le [El2 <-]]. pose proof (IH le (last_In _ _ El2)) as W.
      destruct (is_reset (t_op (e_txn e))) eqn:Er.
      * destruct (t_op (e_txn e)) eqn:Eo; try discriminate.
        cbn [apply_op] in B3. apply bbind_ok in B3 as [[new nr0] [B31 B32]]. injection B32 as <- _ _. apply with_row_ids_ids in B31. rewrite B31.
        unfold ids_honest in Hon. rewrite Eo in Hon. apply with_ids_NoDup; rewrite <- chosen_explicit, Hon; [constructor|intros i []].
      * eapply (apply_op_ids (t_op (e_txn e)) (e_man le)); eauto. now apply OH.
    + destruct (t_op (e_txn e)) eqn:Eo; cbn [apply_op] in B3; try discriminate.
      * apply bbind_ok in B3 as [[new nr0] [B31 B32]]. injection B32 as <- _ _. apply with_row_ids_ids in B31. rewrite B31.
        unfold ids_honest in Hon. rewrite Eo in Hon. apply with_ids_NoDup; rewrite <- chosen_explicit, Hon; [constructor|intros i []].
      * unfold ids_honest in Hon. rewrite Eo in Hon. destruct Hon as [m1 [M1 _]]. apply latest_None in El. subst h.
        unfold man_at, version_entry in M1. destruct (_ =? 0); [discriminate|]. destruct (N.to_nat _ - 1)%nat; discriminate.
Qed.

(* ---- freshness ---- *)
Lemma used_below_max : forall h m, good h -> no_restore h -> latest h = Some m -> forall i, used h i -> i <= m_max m.
Proof.
  induction h as [|e h IH] using rev_ind; intros m G Hn Hm i U; [discriminate|]. rewrite latest_snoc in Hm. injection Hm as <-.
  destruct U as [e' [He Hi]]. pose proof (history_wf _ G) as W. apply in_app_iff in He as [He|[<-|[]]]; [|apply (W e); auto; apply in_app_iff; right; now left].
  assert (exists m1, latest h = Some m1) as [m1 Hm1]. { destruct (latest h) eqn:E; eauto. apply latest_None in E. subst h. destruct He. }
  assert (i <= m_max m1). { eapply IH; eauto using good_prefix. - intros x v Hx. apply Hn, in_app_iff. now left. - exists e'. auto. }
  destruct G as [G _]. apply history_snoc in G as [_ [_ [_ [file G]]]]. apply commit_inv in G as [[v [le [old [E1 _]]]]|[m0 [E1 [E2 E3]]]].
  - exfalso. eapply Hn; [|exact E1]. apply in_app_iff. right. now left.
  - apply build_inv in E1 as [sch [nr [fs [nr' [_ [_ [_ [_ [_ [B6 _]]]]]]]]]]. apply finish_inv in E2 as [_ [_ [_ [_ [_ [_ [_ [F _]]]]]]]].
    rewrite Hm1 in B6. cbn [cur_max] in B6. lia.
Qed.

Lemma fresh_ids : forall h e m, good (h ++ [e]) -> no_restore h -> is_reset (t_op (e_txn e)) = false -> latest h = Some m ->
  forall i, In i (frag_ids (e_man e)) -> ~ In i (frag_ids m) -> used h i -> i = 0 /\ m_max m = 0 /\ frag_ids m = [].
Proof.
  intros h e m G Hn Hr Hm i Hi Hni U. pose proof (history_wf _ (good_prefix _ _ G)) as W.
  pose proof (used_below_max h m (good_prefix _ _ G) Hn Hm i U) as Hle. pose proof (op_honest h e m G W Hm) as OH.
  destruct (latest_last _ _ Hm) as [le [El2 <-]]. pose proof (W le (last_In _ _ El2)) as W1.
  destruct G as [Gh Ga]. apply all_snoc in Ga as [_ Hon]. apply history_snoc in Gh as [_ [_ [_ [file G]]]]. apply commit_inv in G as [[v [le' [old [E1 _]]]]|[m0 [E1 [E2 E3]]]].
  - rewrite E1 in Hr. discriminate.
  - apply build_inv in E1 as [sch [nr [fs [nr' [_ [_ [B3 [B4 _]]]]]]]]. apply finish_inv in E2 as [F _]. unfold frag_ids in Hi. rewrite F, B4 in Hi.
    rewrite Hm in B3. apply (Permutation_in i (Permutation_map f_id (sort_frags_perm fs))) in Hi.
    destruct (apply_op_ids _ _ _ _ _ _ _ _ W1 Hr OH B3) as [_ R]. destruct (R i Hi) as [C|[C|C]]; [contradiction| |].
    + exfalso. unfold ids_honest in Hon. destruct (t_op (e_txn e)); cbn [TxnSpec.new_fragments] in C; try discriminate Hr; try (destruct C; fail); apply (proj1 (proj2 Hon i C) U).
    + destruct (next_id_above _ _ W1 Hr) as [_ [_ X]].
      destruct (N.eq_dec (next_id (t_op (e_txn e)) (Some (e_man le))) 0) as [Z|Z]; [|specialize (X Z); lia].
      assert (next_id (t_op (e_txn e)) (Some (e_man le)) = match max_fragment_id (e_man le) with Some i => i + 1 | None => 0 end) as Y by (destruct (t_op (e_txn e)); cbn in *; auto; discriminate).
      rewrite Y in Z. unfold max_fragment_id in Z. destruct (m_max (e_man le) =? 0) eqn:E0; [|lia]. unfold frag_ids. destruct (m_fragments (e_man le)); [|lia].
      cbn. split; [lia|]. split; [lia|reflexivity].
Qed.
