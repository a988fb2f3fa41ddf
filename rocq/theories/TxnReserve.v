(* Reserving fragment ids, and committing the results of compaction tasks (C83, C84). *)
From Coq Require Import List Arith NArith ZArith Bool Lia Permutation.
From Coq Require Import ZifyBool ZifyN ZifyNat.
From Verif Require Import Lib AMap TreeMapModel SerdeModel TxnModel TxnSpec TxnLemmas TxnIdsProofs TxnFrame TxnRowIds TxnRewrite TxnExamples.
Import ListNotations.
Local Open Scope N_scope.

(* rust/lance/src/dataset/optimize.rs:587-620 reserve_fragment_ids, after its ReserveFragments
   transaction has been committed as manifest m: the fragments get the last ids reserved.  The u32
   addition and subtraction panic on overflow (as in debug builds). *)
Definition reserve_fragment_ids (m : manifest) (l : list fragment) : bres (list fragment) :=
  if two32 <=? m_max m + 1 then BPanic else
  if m_max m + 1 <? N.of_nat (length l) then BPanic else
  BOk (map (fun p => set_id (fst p) (snd p)) (combine l (nrange (m_max m + 1 - N.of_nat (length l)) (length l)))).
Definition reservation (l : list fragment) : op := ReserveFragments (N.of_nat (length l)).

(* a RewriteResult, optimize.rs:577-586 (metrics and row_id_map left out: the map goes into the
   remapped index files, C44 and C50) *)
Record task_result := { tr_read : N; tr_old : list fragment; tr_new : list fragment }.
Definition group_of (t : task_result) : rewrite_group := {| rg_old := tr_old t; rg_new := tr_new t |}.
(* optimize.rs:837-920 commit_compaction: the transaction it commits.  The version is the one of the
   dataset handle passed in; RewriteResult::read_version is not looked at. *)
Definition commit_compaction (handle : N) (uuid : N) (tasks : list task_result) (rw : list rewritten_index) : txn :=
  {| t_read := handle; t_uuid := uuid; t_op := Rewrite (map group_of tasks) rw; t_tag := None |}.

(* ---- C84: which ids writers use ---- *)
(* appends, updates and overwrites leave the ids to the commit; a rewrite takes ids from a
   reservation made after the version it read, and nobody else takes the same ids *)
Definition reserved_in (h : list entry) (r : N) (i : N) : Prop :=
  exists e l l', version_entry h r = Some e /\ t_op (e_txn e) = reservation l /\ reserve_fragment_ids (e_man e) l = BOk l' /\ In i (map f_id l').
Definition takes_reserved (h : list entry) (t : txn) : Prop :=
  match t_op t with
  | Append l | Update _ _ l | Overwrite l _ _ => chosen_ids l = []
  | Rewrite gs _ => NoDup (chosen_ids (flat_map rg_new gs)) /\
      forall i, In i (chosen_ids (flat_map rg_new gs)) ->
        (exists r, t_read t <= r /\ reserved_in h r i) /\
        forall x, In x h -> ~ In i (chosen_ids (new_fragments (t_op (e_txn x))))
  | Merge l _ => exists m, man_at h (t_read t) = Some m /\ map f_id l = frag_ids m
  | DataReplacement r => NoDup (map fst r)
  | _ => True
  end.

Lemma reserve_In : forall m l l' i, reserve_fragment_ids m l = BOk l' -> (In i (map f_id l') <-> m_max m + 1 - N.of_nat (length l) <= i <= m_max m).
Proof.
  intros m l l' i H. unfold reserve_fragment_ids in H. destruct (two32 <=? m_max m + 1) eqn:E1; [discriminate|]. destruct (m_max m + 1 <? _) eqn:E2; [discriminate|]. injection H as <-.
  rewrite map_map. cbn. assert (Hm : map (fun x : fragment * N => snd x) (combine l (nrange (m_max m + 1 - N.of_nat (length l)) (length l))) = nrange (m_max m + 1 - N.of_nat (length l)) (length l)).
  { generalize (nrange_length (length l) (m_max m + 1 - N.of_nat (length l))). generalize (nrange (m_max m + 1 - N.of_nat (length l)) (length l)). clear.
    induction l as [|f l IH]; intros [|x k] H; cbn in *; try discriminate; auto. f_equal. apply IH. now injection H. }
  rewrite Hm, nrange_In. lia.
Qed.
Lemma reserve_NoDup : forall m l l', reserve_fragment_ids m l = BOk l' -> NoDup (map f_id l') /\ length l' = length l.
Proof.
  intros m l l' H. unfold reserve_fragment_ids in H. destruct (two32 <=? m_max m + 1) eqn:E1; [discriminate|]. destruct (m_max m + 1 <? _) eqn:E2; [discriminate|]. injection H as <-.
  rewrite map_map. cbn. assert (Hm : map (fun x : fragment * N => snd x) (combine l (nrange (m_max m + 1 - N.of_nat (length l)) (length l))) = nrange (m_max m + 1 - N.of_nat (length l)) (length l)).
  { generalize (nrange_length (length l) (m_max m + 1 - N.of_nat (length l))). generalize (nrange (m_max m + 1 - N.of_nat (length l)) (length l)). clear.
    induction l as [|f l IH]; intros [|x k] H; cbn in *; try discriminate; auto. f_equal. apply IH. now injection H. }
  rewrite Hm. split; [apply sinc_NoDup, nrange_sinc|]. rewrite map_length, combine_length, nrange_length. lia.
Qed.

Lemma max_grows : forall h e m, history (h ++ [e]) -> no_restore (h ++ [e]) -> latest h = Some m -> m_max m <= m_max (e_man e).
Proof.
  intros h e m G Hn L. apply history_snoc in G as [_ [_ [_ [file G]]]]. apply commit_inv in G as [[v [le [old [E1 _]]]]|[m0 [E1 [E2 E3]]]].
  - exfalso. eapply Hn; [|exact E1]. apply in_app_iff. right. now left.
  - apply build_inv in E1 as [sch [nr [fs [nr' [_ [_ [_ [_ [_ [B6 _]]]]]]]]]]. apply finish_inv in E2 as [_ [_ [_ [_ [_ [_ [_ [F _]]]]]]]].
    rewrite L in B6. cbn [cur_max] in B6. lia.
Qed.
Lemma reserve_max : forall h e n, good (h ++ [e]) -> t_op (e_txn e) = ReserveFragments n -> exists m, latest h = Some m /\ m_max (e_man e) = m_max m + n /\ m_fragments (e_man e) = m_fragments m.
Proof.
  intros h e n G Eo. pose proof (history_wf _ (good_prefix _ _ G)) as W. destruct G as [G _]. apply history_snoc in G as [_ [_ [_ [file G]]]].
  destruct (latest h) as [m|] eqn:L.
  - exists m. split; auto. destruct (latest_last _ _ L) as [le [El <-]]. pose proof (W le (last_In _ _ El)) as W1.
    assert (Hf : m_fragments (e_man e) = m_fragments (e_man le)) by (eapply quiet_keeps; eauto; [rewrite Eo; exact I|apply W1]).
    split; auto. apply commit_inv in G as [[v [le' [old [E1 _]]]]|[m0 [E1 [E2 E3]]]]; [congruence|].
    apply build_inv in E1 as [sch [nr [fs [nr' [_ [_ [B3 [B4 [_ [B6 _]]]]]]]]]]. apply finish_inv in E2 as [F1 [_ [_ [_ [_ [_ [_ [F _]]]]]]]].
    rewrite L, Eo in *. cbn [cur_max apply_op] in *. injection B3 as <- _ _.
    assert (maxN (map f_id (m_fragments (e_man le))) <= m_max (e_man le)) by (apply maxN_le; intros x Hx; apply W1; exact Hx).
    assert (maxN (map f_id (m_fragments m0)) <= m_max m0). { rewrite B4. apply maxN_le. intros x Hx. apply (Permutation_in x (Permutation_map f_id (sort_frags_perm _))) in Hx. apply maxN_bound in Hx. lia. }
    rewrite F. lia.
  - exfalso. apply latest_None in L. subst h. unfold commit_on in G. rewrite last_nil in G. apply bbind_ok in G as [[m0 ix] [G _]].
    apply build_inv in G as [sch [nr [fs [nr' [B1 _]]]]]. rewrite Eo in B1. discriminate.
Qed.
(* an id not in use and below the maximum stays unused until someone chooses it *)
Lemma reserved_step : forall i h e m0 m, i <> 0 -> good (h ++ [e]) /\ no_restore (h ++ [e]) ->
  is_reset (t_op (e_txn e)) = false /\ ~ In i (chosen_ids (new_fragments (t_op (e_txn e)))) -> latest h = Some m ->
  (~ In i (frag_ids m0) -> i <= m_max m0 -> ~ In i (frag_ids m) /\ i <= m_max m) ->
  ~ In i (frag_ids m0) -> i <= m_max m0 -> ~ In i (frag_ids (e_man e)) /\ i <= m_max (e_man e).
Proof.
  intros i h e m0 m Hi [G Hn] [Hr Hc] L P A B. destruct (P A B) as [P1 P2]. pose proof (max_grows h e m (proj1 G) Hn L) as M. split; [|lia]. intros C.
  pose proof (history_wf _ (good_prefix _ _ G)) as W. pose proof (op_honest h e m G W L) as OH. destruct (latest_last _ _ L) as [le [El2 <-]]. pose proof (W le (last_In _ _ El2)) as W1.
  destruct G as [Gh _]. apply history_snoc in Gh as [_ [_ [_ [file G]]]]. apply commit_inv in G as [[v [le' [old [E1 _]]]]|[m1 [E1 [E2 E3]]]]; [rewrite E1 in Hr; discriminate|].
  apply build_inv in E1 as [sch [nr [fs [nr' [_ [_ [B3 [B4 _]]]]]]]]. apply finish_inv in E2 as [F _]. unfold frag_ids in C. rewrite F, B4 in C. rewrite L in B3.
  apply (Permutation_in i (Permutation_map f_id (sort_frags_perm fs))) in C. destruct (apply_op_ids _ _ _ _ _ _ _ _ W1 Hr OH B3) as [_ R].
  destruct (R i C) as [D|[D|D]]; [contradiction|contradiction|]. destruct (next_id_above _ _ W1 Hr) as [_ [X _]]. specialize (X i Hi P2). lia.
Qed.
Lemma no_restore_prefix : forall a b, no_restore (a ++ b) -> no_restore a.
Proof. intros a b H e v He. apply H. apply in_app_iff. now left. Qed.
Lemma all_prefix : forall P a b, all_entries P (a ++ b) -> all_entries P a.
Proof. intros P a b H h1 e h2 E. apply (H h1 e (h2 ++ b)). rewrite E. now rewrite <- app_assoc. Qed.
Lemma version_split : forall h r e, version_entry h r = Some e -> exists a b, h = a ++ e :: b /\ N.to_nat r = S (length a).
Proof.
  intros h r e H. unfold version_entry in H. destruct (r =? 0) eqn:E; [discriminate|]. destruct (nth_error_split _ _ H) as [a [b [H1 H2]]]. exists a, b. split; auto. lia.
Qed.
Lemma since_in : forall {A} (l : list A) a b x, (a <= b)%nat -> In x (skipn b l) -> In x (skipn a l).
Proof.
  intros A l a b x L H. assert (E : skipn b l = skipn (b - a) (skipn a l)) by (rewrite skipn_skipn'; f_equal; lia). rewrite E in H.
  rewrite <- (firstn_skipn (b - a) (skipn a l)). apply in_app_iff. now right.
Qed.
Theorem reserved_fresh : forall h r i, good h -> no_restore h -> reserved_in h r i ->
  Forall (fun x => is_reset (t_op (e_txn x)) = false) (since h r) ->
  (forall x, In x h -> ~ In i (chosen_ids (new_fragments (t_op (e_txn x))))) ->
  ~ used h i /\ i <> 0 /\ exists m, latest h = Some m /\ i <= m_max m.
Proof.
  intros h r i G Hn [er [l [l' [V [Eo [R Hi]]]]]] Hs Hc. destruct (version_split _ _ _ V) as [a [b [Eh Er]]]. apply (reserve_In _ _ _ _ R) in Hi.
  assert (Ga : forall k, good (firstn k h)). { intros k. destruct G as [G1 G2]. split; [apply (history_prefix _ (skipn k h)); now rewrite firstn_skipn|apply (all_prefix _ _ (skipn k h)); now rewrite firstn_skipn]. }
  assert (Na : forall k, no_restore (firstn k h)). { intros k. apply (no_restore_prefix _ (skipn k h)). now rewrite firstn_skipn. }
  assert (Gr : good (a ++ [er])). { specialize (Ga (S (length a))). rewrite Eh in Ga. rewrite firstn_app in Ga. rewrite firstn_all2 in Ga by lia. now replace (S (length a) - length a)%nat with 1%nat in Ga by lia. }
  destruct (reserve_max a er _ Gr Eo) as [ma [La [Mx Mf]]].
  assert (I0 : i <> 0) by lia.
  assert (Ua : ~ used a i). { intros U. assert (i <= m_max ma); [|lia]. apply (used_below_max a ma); auto; [now apply good_prefix in Gr|]. rewrite Eh in Hn. now apply no_restore_prefix in Hn. }
  assert (Ur : ~ In i (frag_ids (e_man er))). { unfold frag_ids. rewrite Mf. intros C. apply Ua. destruct (latest_last _ _ La) as [le [El <-]]. exists le. split; auto. now apply last_In. }
  (* at every later version *)
  assert (Later : forall k m, (length a < k <= length h)%nat -> latest (firstn k h) = Some m -> ~ In i (frag_ids m) /\ i <= m_max m).
  { intros k m Hk Lk. cut (~ In i (frag_ids (e_man er)) -> i <= m_max (e_man er) -> ~ In i (frag_ids m) /\ i <= m_max m); [intros X; apply X; auto; lia|].
    apply (interval_ind (fun h' => good h' /\ no_restore h') (fun o => is_reset o = false /\ ~ In i (chosen_ids (new_fragments o)))
      (fun m0 m => ~ In i (frag_ids m0) -> i <= m_max m0 -> ~ In i (frag_ids m) /\ i <= m_max m)) with (h := firstn k h) (r := r); auto.
    - intros h0 e0 [A B]. split; [eapply good_prefix; eauto|eapply no_restore_prefix; eauto].
    - intros h0 e0 m0 m1 GN Q L0 P. apply (reserved_step i h0 e0 m0 m1 I0 GN Q L0 P).
    - apply Forall_forall. intros x Hx. unfold since in Hs. rewrite Forall_forall in Hs.
      assert (Hx' : In x (skipn (N.to_nat r) h)). { rewrite <- (firstn_skipn k h), skipn_app. apply in_app_iff. now left. }
      split; [now apply Hs|]. apply Hc. rewrite <- (firstn_skipn (N.to_nat r) h). apply in_app_iff. now right.
    - unfold man_at, version_entry. replace (r =? 0) with false by lia. replace (N.to_nat r - 1)%nat with (length a) by lia.
      rewrite Eh. rewrite firstn_app. rewrite firstn_all2 by lia. rewrite nth_error_app2 by lia. rewrite Nat.sub_diag. destruct (k - length a)%nat eqn:E; [lia|]. reflexivity. }
  split; [|split; auto].
  - intros [x [Hx Hix]]. apply In_nth_error in Hx as [k Hk]. assert (k < length h)%nat by (apply nth_error_Some; congruence).
    destruct (Nat.lt_ge_cases k (length a)) as [C|C].
    + apply Ua. exists x. split; auto. rewrite Eh, nth_error_app1 in Hk by auto. eapply nth_error_In; eauto.
    + destruct (nth_error_split _ _ Hk) as [p [q [E1 E2]]].
      assert (Lx : latest (firstn (S k) h) = Some (e_man x)). { rewrite E1, firstn_app, firstn_all2 by lia. replace (S k - length p)%nat with 1%nat by lia. cbn [firstn]. apply latest_snoc. }
      destruct (Later (S k) _ ltac:(lia) Lx) as [D _]. contradiction.
  - destruct (latest h) as [m|] eqn:L; [|apply latest_None in L; subst h; destruct a; discriminate]. exists m. split; auto.
    apply (Later (length h) m); [rewrite Eh, app_length; cbn; lia|]. now rewrite firstn_all.
Qed.
(* two reservations never hand out the same id *)
Theorem reservations_disjoint : forall h r1 r2 i, good h -> no_restore h -> reserved_in h r1 i -> reserved_in h r2 i -> r1 = r2.
Proof.
  assert (K : forall h r1 r2 i, good h -> no_restore h -> reserved_in h r1 i -> reserved_in h r2 i -> r1 < r2 -> False).
  { intros h r1 r2 i G Hn [e1 [l1 [l1' [V1 [O1 [R1 H1]]]]]] [e2 [l2 [l2' [V2 [O2 [R2 H2]]]]]] Hlt.
    apply (reserve_In _ _ _ _ R1) in H1. apply (reserve_In _ _ _ _ R2) in H2. destruct (version_split _ _ _ V2) as [a [b [Eh Er]]].
    assert (Gr : good (a ++ [e2])). { destruct G as [G1 G2]. rewrite Eh in G1, G2. replace (a ++ e2 :: b) with ((a ++ [e2]) ++ b) in G1, G2 by now rewrite <- app_assoc.
      split; [now apply history_prefix in G1|now apply all_prefix in G2]. }
    assert (Na : no_restore (a ++ [e2])). { rewrite Eh in Hn. replace (a ++ e2 :: b) with ((a ++ [e2]) ++ b) in Hn by now rewrite <- app_assoc. now apply no_restore_prefix in Hn. }
    destruct (reserve_max a e2 _ Gr O2) as [ma [La [Mx _]]]. cut (m_max (e_man e1) <= m_max ma); [lia|].
    apply (interval_ind (fun h' => history h' /\ no_restore h') (fun _ => True) (fun m0 m => m_max m0 <= m_max m)) with (h := a) (r := r1); auto.
    - intros h0 e0 [A B]. split; [eapply history_prefix; eauto|eapply no_restore_prefix; eauto].
    - intros m. lia.
    - intros h0 e0 m0 m [A B] _ L P. pose proof (max_grows _ _ _ A B L). lia.
    - split; [apply (history_prefix _ [e2]), Gr|now apply no_restore_prefix in Na].
    - apply Forall_forall. auto.
    - unfold man_at. unfold version_entry in V1 |- *. destruct (r1 =? 0) eqn:E0; [discriminate|]. rewrite Eh, nth_error_app1 in V1 by lia. now rewrite V1. }
  intros h r1 r2 i G Hn H1 H2. destruct (N.lt_trichotomy r1 r2) as [C|[C|C]]; auto; exfalso; eauto.
Qed.
(* writers that behave like this satisfy what C36, C38, C39, C44 and C51 ask of them about ids *)
Theorem reserved_honest : forall h, history h -> no_restore h -> all_entries takes_reserved h -> all_entries ids_honest h.
Proof.
  induction h as [|e h IH] using rev_ind; intros H Hn Ha; [intros [|]; discriminate|].
  apply all_snoc in Ha as [Ha He]. pose proof (history_prefix _ _ H) as Hp. pose proof (no_restore_prefix _ _ Hn) as Np. specialize (IH Hp Np Ha).
  intros h1 x h2 E. assert (Hx : (h2 = [] /\ h1 = h /\ x = e) \/ exists h2', h = h1 ++ x :: h2').
  { destruct h2 as [|y t] using rev_ind; [left|right].
    - apply app_inj_tail in E as [-> ->]. auto.
    - exists t. rewrite app_comm_cons, app_assoc in E. now apply app_inj_tail in E as [-> _]. }
  destruct Hx as [[-> [-> ->]]|[h2' ->]]; [|now apply (IH h1 x h2')].
  unfold takes_reserved in He. unfold ids_honest. apply history_snoc in H as [_ [_ [Hc _]]].
  destruct (t_op (e_txn e)) eqn:Eo; auto; try (rewrite He; split; [constructor|intros i []]).
  destruct He as [H1 H2]. split; auto. intros i Hi. destruct (H2 i Hi) as [[r [Hr R]] C].
  destruct (reserved_fresh h r i (conj Hp IH) Np R) as [U [_ M]]; auto.
  apply Forall_forall. intros y Hy. rewrite Forall_forall in Hc. specialize (Hc y).
  assert (In y (skipn (N.to_nat (t_read (e_txn e))) h)) by (eapply since_in; [|exact Hy]; lia).
  specialize (Hc H). destruct (t_op (e_txn y)); auto; cbn in Hc; discriminate.
Qed.

(* ---- C83: committing task results ---- *)
(* the same transaction read at a later version would have been accepted too *)
Definition reread (t : txn) (r : N) : txn := {| t_read := r; t_uuid := t_uuid t; t_op := t_op t; t_tag := t_tag t |}.
Definition entry_at (e : entry) (r : N) : entry := {| e_txn := reread (e_txn e) r; e_cfg := e_cfg e; e_man := e_man e; e_idx := e_idx e |}.
Lemma reread_commit : forall h t r file c, commit_on h (reread t r) file c = commit_on h t file c.
Proof. reflexivity. Qed.
Lemma reread_history : forall h e r, history (h ++ [e]) -> t_read (e_txn e) <= r <= N.of_nat (length h) -> 1 <= r -> history (h ++ [entry_at e r]).
Proof.
  intros h e r H Hr H1. apply history_snoc in H as [Hp [_ [Hc [file G]]]]. apply hist_next with (file := file); auto.
  - right. cbn. lia.
  - apply Forall_forall. intros x Hx. rewrite Forall_forall in Hc. cbn. apply Hc. eapply since_in; [|exact Hx]. cbn. lia.
Qed.
(* what the tasks did: each read its fragments at its version, and wrote their rows again *)
Definition task_done {R} (rows : fragment -> list R) (h : list entry) (t : task_result) : Prop :=
  (exists m, man_at h (tr_read t) = Some m /\ incl (tr_old t) (m_fragments m)) /\ Permutation (flat_map rows (tr_new t)) (flat_map rows (tr_old t)).
Theorem compaction_keeps_rows : forall {R} (rows : fragment -> list R) h e m handle uuid tasks rw,
  (forall f i, rows (set_id f i) = rows f) -> (forall a b, same_rows a b -> rows a = rows b) ->
  good (h ++ [e]) -> e_txn e = commit_compaction handle uuid tasks rw -> latest h = Some m ->
  NoDup (map f_id (flat_map tr_old tasks)) -> Forall (task_done rows h) tasks ->
  Forall (fun t => handle <= tr_read t) tasks ->
  Permutation (flat_map rows (m_fragments (e_man e))) (flat_map rows (m_fragments m)) /\
  (forall f, In f (m_fragments m) -> ~ In (f_id f) (map f_id (flat_map tr_old tasks)) -> In f (m_fragments (e_man e))).
Proof.
  intros R rows h e m handle uuid tasks rw Rid Rsame G Et L Hnd Hd Hr.
  assert (Eold : flat_map rg_old (map group_of tasks) = flat_map tr_old tasks) by (clear; induction tasks as [|t l IH]; cbn; [auto|now rewrite IH]).
  rewrite <- Eold in *. apply (rewrite_rows_core rows h e m (map group_of tasks) rw); auto; [now rewrite Et| |].
  - intros x Hx. rewrite Eold in Hx. apply in_flat_map in Hx as [t [T1 T2]]. rewrite Forall_forall in Hd, Hr. destruct (Hd t T1) as [[mr [M1 M2]] _]. specialize (Hr t T1).
    assert (Hv : 1 <= tr_read t <= N.of_nat (length h)). { unfold man_at, version_entry in M1. destruct (tr_read t =? 0) eqn:E0; [discriminate|]. destruct (nth_error h (N.to_nat (tr_read t) - 1)) eqn:En; [|discriminate].
      assert (N.to_nat (tr_read t) - 1 < length h)%nat by (apply nth_error_Some; congruence). lia. }
    assert (Hh : history (h ++ [entry_at e (tr_read t)])) by (apply reread_history; [apply G|rewrite Et; cbn; lia|lia]).
    destruct (accepted_keeps h (entry_at e (tr_read t)) mr m Hh) with (f := x) as [f' [P1 [P2 _]]]; auto; cbn [entry_at e_txn reread t_op t_read]; rewrite ?Et; cbn [commit_compaction t_op]; [exact I| |].
    + cbn. exists (group_of t), x. split; [now apply in_map|auto].
    + exists f'. split; auto. split; [apply P2|]. symmetry. now apply Rsame.
  - intros g Hg. apply in_map_iff in Hg as [t [<- Ht]]. rewrite Forall_forall in Hd. apply (Hd t Ht).
Qed.

(* ---- concrete cases ---- *)
(* the rows of a fragment: (file, offset), where file 12 holds the rows of file 10 again; a deletion file deletes a prefix *)
Definition ex_rows (f : fragment) : list (N * N) :=
  flat_map (fun d => map (fun o => (if df_path d =? 12 then 10 else df_path d, o))
     (nrange (match f_del f with Some {| dl_count := Some n |} => n | _ => 0 end) (N.to_nat (match f_rows f with Some n => n | None => 0 end - match f_del f with Some {| dl_count := Some n |} => n | _ => 0 end))))
    (firstn 1 (f_files f)).
Definition one_file (h : list entry) : Prop := forall e f, In e h -> In f (m_fragments (e_man e)) -> exists d, f_files f = [d].
Definition ex_task (old : fragment) : task_result := {| tr_read := 1; tr_old := [old]; tr_new := [frag 1 12 5 [0%Z; 1%Z]] |}.
Definition old0 := frag 0 10 5 [0%Z; 1%Z].
(* the compaction tasks read version 1; a row is deleted; the results are committed with a handle on version 3 *)
Definition undelete_h := [(created, dflt); (tx 1 2 (reservation [old0]), dflt); (tx 1 3 (Delete [with_del old0 7] []), dflt); (commit_compaction 3 4 [ex_task old0] [], dflt)].
(* the table is overwritten instead *)
Definition unoverwrite_h := [(created, dflt); (tx 1 2 (reservation [old0]), dflt); (tx 1 3 (Overwrite [frag 0 20 7 [2%Z]] (sch [2%Z]) None), dflt); (commit_compaction 3 4 [ex_task old0] [], dflt)].
(* nothing happens to the fragment in between: an append and a delete elsewhere *)
Definition compacted_h := [(created, dflt); (tx 1 2 (Append [frag 0 11 3 [0%Z; 1%Z]]), dflt); (tx 2 3 (reservation [old0]), dflt);
  (tx 2 4 (Delete [with_del (frag 1 11 3 [0%Z; 1%Z]) 7] []), dflt); (tx 3 5 (Append [frag 0 13 3 [0%Z; 1%Z]]), dflt); (commit_compaction 1 6 [{| tr_read := 2; tr_old := [old0]; tr_new := [frag 2 12 5 [0%Z; 1%Z]] |}] [], dflt)].

Lemma task_ok : forall h m t, man_at h (tr_read t) = Some m -> incl (tr_old t) (m_fragments m) -> flat_map ex_rows (tr_new t) = flat_map ex_rows (tr_old t) -> task_done ex_rows h t.
Proof. intros h m t H1 H2 H3. split; [eauto|]. now rewrite H3. Qed.
Ltac startr n l := let h := eval vm_compute in (firstn n (hist l)) in let e := eval vm_compute in (nth_entry n l) in
  exists h, e; replace (h ++ [e]) with (hist l) by (vm_compute; reflexivity).
Lemma deleted_rows_back_refuted : exists h e m task handle uuid rw, good (h ++ [e]) /\ e_txn e = commit_compaction handle uuid [task] rw /\ latest h = Some m /\
  task_done ex_rows h task /\ tr_read task < handle /\
  Forall (fun x => match t_op (e_txn x) with Delete _ _ | ReserveFragments _ => True | _ => False end) (since h (tr_read task)) /\
  exists r, ~ In r (flat_map ex_rows (m_fragments m)) /\ In r (flat_map ex_rows (m_fragments (e_man e))).
Proof.
  startr 3%nat undelete_h. eexists. exists (ex_task old0), 3, 4, []. split; [good_ok|]. split; [reflexivity|]. split; [reflexivity|]. split; [|split; [reflexivity|split]].
  - eapply task_ok; [reflexivity| |reflexivity]. intros x [<-|[]]. left. reflexivity.
  - repeat constructor.
  - exists (10, 0). vm_compute. split; [|auto]. intuition discriminate.
Qed.
Lemma overwritten_rows_back_refuted : exists h e m task handle uuid rw, good (h ++ [e]) /\ e_txn e = commit_compaction handle uuid [task] rw /\ latest h = Some m /\
  task_done ex_rows h task /\ tr_read task < handle /\
  flat_map ex_rows (m_fragments m) <> [] /\ forall r, In r (flat_map ex_rows (m_fragments m)) -> ~ In r (flat_map ex_rows (m_fragments (e_man e))).
Proof.
  startr 3%nat unoverwrite_h. eexists. exists (ex_task old0), 3, 4, []. split; [good_ok|]. split; [reflexivity|]. split; [reflexivity|]. split; [|split; [reflexivity|split]].
  - eapply task_ok; [reflexivity| |reflexivity]. intros x [<-|[]]. left. reflexivity.
  - discriminate.
  - intros [a b] H C. vm_compute in H, C. intuition congruence.
Qed.
Lemma ex_rows_id : forall f i, ex_rows (set_id f i) = ex_rows f.
Proof. reflexivity. Qed.
Example compacted_ok : good (hist compacted_h) /\ all_entries takes_reserved (hist compacted_h) /\ no_restore (hist compacted_h) /\
  Forall (task_done ex_rows (firstn 5 (hist compacted_h))) [{| tr_read := 2; tr_old := [old0]; tr_new := [frag 2 12 5 [0%Z; 1%Z]] |}] /\
  map (fun e => frag_ids (e_man e)) (hist compacted_h) = [[0]; [0; 1]; [0; 1]; [0; 1]; [0; 1; 3]; [1; 2; 3]].
Proof.
  split; [good_ok|]. split; [|split; [|split]].
  - let h := eval vm_compute in (hist compacted_h) in replace (hist compacted_h) with h by (vm_compute; reflexivity). apply every_entries. cbn [every app e_txn]. unfold takes_reserved at 1 2 3 4 5 6; cbn [t_op t_read]. repeat (split; [auto; reflexivity|]). split; [|exact I]. split; [repeat constructor; intros []|].
    intros i [<-|[]]. split.
    + exists 3. split; [cbn; lia|]. eexists. exists [old0]. eexists. split; [reflexivity|]. split; [reflexivity|]. split; [reflexivity|]. left. reflexivity.
    + intros x Hx C. cbn [In] in Hx. repeat (destruct Hx as [<-|Hx]); try destruct Hx; vm_compute in C; tauto.
  - let h := eval vm_compute in (hist compacted_h) in replace (hist compacted_h) with h by (vm_compute; reflexivity). intros e v He. cbn [In] in He. repeat (destruct He as [<-|He]); try destruct He; discriminate.
  - constructor; [|constructor]. let h := eval vm_compute in (firstn 5 (hist compacted_h)) in replace (firstn 5 (hist compacted_h)) with h by (vm_compute; reflexivity). eapply task_ok; [reflexivity| |reflexivity]. intros x [<-|[]]. left. reflexivity.
  - vm_compute. reflexivity.
Qed.
