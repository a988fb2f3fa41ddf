(* C42, C43: table config and feature flags. *)
From Coq Require Import List Arith NArith ZArith Bool Lia Permutation.
From Coq Require Import ZifyBool ZifyN ZifyNat.
From Verif Require Import Lib AMap TreeMapModel SerdeModel TxnModel TxnSpec TxnLemmas TxnIdsProofs.
Import ListNotations.
Local Open Scope N_scope.

Lemma get_extend : forall m c k, am_wf m -> get k (config_extend c m) = match get k m with Some v => Some v | None => get k c end.
Proof.
  unfold config_extend. induction m as [|[k' v] t IH]; intros c k W; [reflexivity|]. cbn [fold_left fst snd get]. destruct W as [W1 W2].
  rewrite IH by exact W2. rewrite get_put. destruct (k =? k') eqn:E.
  - assert (k = k') by lia. subst k'. assert (get k t = None) as ->; [|reflexivity]. apply get_None. intros C. specialize (W1 k C). cbn in W1. lia.
  - reflexivity.
Qed.
Lemma get_delete : forall c d k, get k (config_delete c d) = if in_dec N.eq_dec k d then None else get k c.
Proof.
  intros. unfold config_delete. rewrite (get_filter_key (fun x => negb (memN x d))). destruct (in_dec N.eq_dec k d) as [i|n].
  - apply memN_In in i. now rewrite i.
  - apply memN_false in n. now rewrite n.
Qed.
Lemma apply_config_get : forall o c s k, cfg_wf o ->
  get k (fst (apply_config o c s)) = match cfg_writes o k with Some r => r | None => get k c end.
Proof.
  intros o c s k W. destruct o; cbn [apply_config cfg_writes fst]; auto.
  - destruct upsert as [m|]; auto. cbn [fst]. rewrite get_extend by exact W. destruct (get k m); auto.
  - cbn [cfg_wf] in W. destruct W as [W _]. destruct upsert as [m|].
    + rewrite get_extend by exact W. destruct (get k m); auto. destruct delete as [d|]; auto. rewrite get_delete. destruct (in_dec N.eq_dec k d); auto.
    + destruct delete as [d|]; auto. rewrite get_delete. destruct (in_dec N.eq_dec k d); auto.
Qed.
(* the config after a commit *)
Lemma config_effect : forall h e, history (h ++ [e]) -> cfg_wf (t_op (e_txn e)) -> (forall v, t_op (e_txn e) <> Restore v) ->
  forall k, get k (m_config (e_man e)) =
    match cfg_writes (t_op (e_txn e)) k with Some r => r | None => match latest h with Some m => get k (m_config m) | None => None end end.
Proof.
  intros h e H W Hr k. apply history_snoc in H as [_ [_ [_ [file H]]]]. apply commit_inv in H as [[v [le [old [E1 _]]]]|[m0 [E1 [E2 E3]]]].
  - exfalso. eapply Hr; eauto.
  - apply build_inv in E1 as [sch [nr [fs [nr' [_ [_ [_ [_ [_ [_ [_ [B _]]]]]]]]]]]]. apply finish_inv in E2 as [_ [_ [_ [_ [F _]]]]]. rewrite F, B.
    rewrite apply_config_get by exact W. destruct (cfg_writes (t_op (e_txn e)) k); auto. unfold cur_config. destruct (latest h); auto.
Qed.

Lemma upsert_writes : forall o k, is_config o -> (In k (upsert_keys o) <-> exists v, cfg_writes o k = Some (Some v)).
Proof.
  intros o k H. destruct o; cbn in H; try tauto. cbn [upsert_keys cfg_writes]. destruct upsert as [m|].
  - destruct (get k m) eqn:E.
    + split; eauto. intros _. destruct (in_dec N.eq_dec k (keys m)) as [i|n0]; auto. apply get_None in n0. congruence.
    + apply get_None in E. split; [tauto|]. intros [v Hv]. destruct delete as [d|]; [destruct (in_dec N.eq_dec k d)|]; discriminate.
  - split; [intros []|]. intros [v Hv]. destruct delete as [d|]; [destruct (in_dec N.eq_dec k d)|]; discriminate.
Qed.
Lemma ref_writes : forall o k, is_config o -> (In k (upsert_keys o) \/ In k (delete_keys o) <-> cfg_writes o k <> None).
Proof.
  intros o k H. destruct o; cbn in H; try tauto. cbn [upsert_keys delete_keys cfg_writes].
  destruct upsert as [m|]; [destruct (get k m) eqn:E|].
  - split; [discriminate|]. intros _. left. destruct (in_dec N.eq_dec k (keys m)) as [i|n0]; auto. apply get_None in n0. congruence.
  - apply get_None in E. destruct delete as [d|]; [destruct (in_dec N.eq_dec k d)|]; split; try congruence; try tauto; auto.
  - destruct delete as [d|]; [destruct (in_dec N.eq_dec k d)|]; split; cbn; try congruence; try tauto; auto.
Qed.
Lemma config_conflict : forall a b, is_config a -> is_config b ->
  (conflicts_with a b = true <->
     (exists k v, (cfg_writes a k = Some (Some v) /\ cfg_writes b k <> None) \/ (cfg_writes b k = Some (Some v) /\ cfg_writes a k <> None)) \/
     (sets_schema_meta a /\ sets_schema_meta b) \/ (exists id, sets_field_meta a id /\ sets_field_meta b id)).
Proof.
  intros a b Ha Hb.
  assert (U : upsert_key_conflict a b = true <-> exists k v, (cfg_writes a k = Some (Some v) /\ cfg_writes b k <> None) \/ (cfg_writes b k = Some (Some v) /\ cfg_writes a k <> None)).
  { unfold upsert_key_conflict. rewrite orb_true_iff, !existsb_exists. split.
    - intros [[k [H1 H2]]|[k [H1 H2]]]; rewrite orb_true_iff, !memN_In in H2; apply ref_writes in H2; auto; apply upsert_writes in H1 as [v H1]; auto; exists k, v; auto.
    - intros [k [v [[H1 H2]|[H1 H2]]]]; [left|right]; exists k; rewrite orb_true_iff, !memN_In; (split; [apply upsert_writes; eauto|apply ref_writes; auto]). }
  destruct a; cbn in Ha; try tauto. destruct b; cbn in Hb; try tauto.
  cbn [conflicts_with]. rewrite orb_true_iff, U. apply or_iff_compat_l. cbn [modifies_same_metadata]. rewrite orb_true_iff, andb_true_iff.
  apply Morphisms_Prop.or_iff_morphism.
  - destruct smeta, smeta0; cbn; intuition discriminate.
  - cbn [sets_field_meta]. destruct fmeta as [m1|], fmeta0 as [m2|]; try (split; [discriminate|intros [id [A B]]; tauto]).
    rewrite existsb_exists. split; intros [id [A B]]; exists id; split; auto.
    + unfold has in B. destruct (get id m2) eqn:E; [|discriminate]. destruct (in_dec N.eq_dec id (keys m2)) as [i|n]; auto. apply get_None in n. congruence.
    + unfold has. destruct (get id m2) eqn:E; auto. apply get_None in E. tauto.
Qed.

(* two accepted config updates both take effect *)
Lemma both_take_effect : forall a b c s k, is_config a -> is_config b -> cfg_wf a -> cfg_wf b -> conflicts_with b a = false ->
  get k (fst (apply_config b (fst (apply_config a c s)) (snd (apply_config a c s)))) =
    match cfg_writes a k with Some r => r | None => match cfg_writes b k with Some r => r | None => get k c end end.
Proof.
  intros a b c s k Ha Hb Wa Wb Hc. rewrite !apply_config_get by auto. destruct (cfg_writes b k) as [r|] eqn:Eb; destruct (cfg_writes a k) as [q|] eqn:Ea; auto.
  destruct q as [v|], r as [w|]; auto; exfalso; assert (conflicts_with b a = true); try congruence; apply config_conflict; auto; left.
  - exists k, v. rewrite Ea, Eb. right. split; [auto|discriminate].
  - exists k, v. rewrite Ea, Eb. right. split; [auto|discriminate].
  - exists k, w. rewrite Ea, Eb. left. split; [auto|discriminate].
Qed.
Lemma extend_wf : forall m c, am_wf c -> am_wf (config_extend c m).
Proof. unfold config_extend. induction m as [|p t IH]; intros c W; auto. cbn [fold_left]. apply IH. now apply put_wf. Qed.
Lemma apply_config_wf : forall o c s, am_wf c -> am_wf (fst (apply_config o c s)).
Proof.
  intros o c s W. destruct o; cbn [apply_config fst]; auto.
  - destruct upsert; cbn [fst]; auto using extend_wf.
  - assert (am_wf (match delete with Some d => config_delete c d | None => c end)) by (destruct delete; auto; now apply filter_wf).
    destruct upsert; auto using extend_wf.
Qed.
(* the order does not matter for the config *)
Lemma config_commute : forall a b c s, is_config a -> is_config b -> cfg_wf a -> cfg_wf b -> am_wf c -> conflicts_with b a = false ->
  fst (apply_config b (fst (apply_config a c s)) (snd (apply_config a c s))) = fst (apply_config a (fst (apply_config b c s)) (snd (apply_config b c s))).
Proof.
  intros a b c s Ha Hb Wa Wb Wc Hc. apply amap_ext; auto using apply_config_wf. intros k. rewrite both_take_effect by auto.
  rewrite !apply_config_get by auto. destruct (cfg_writes a k); auto.
Qed.
(* ... nor for the schema's metadata *)
Lemma ufm_comm : forall l i m j n, i <> j -> update_field_meta (update_field_meta l i m) j n = update_field_meta (update_field_meta l j n) i m.
Proof.
  intros l i m j n Hij. unfold update_field_meta. rewrite !map_map. apply map_ext. intros [id nm me]. cbn [fd_id fd_name fd_meta].
  destruct (id =? Z.of_N i)%Z eqn:E1, (id =? Z.of_N j)%Z eqn:E2; cbn [fd_id fd_name fd_meta]; rewrite ?E1, ?E2; auto. lia.
Qed.
Definition ufms (l : list field) (m : amap (amap N)) : list field := fold_left (fun acc kv => update_field_meta acc (fst kv) (snd kv)) m l.
Lemma ufms_one : forall m l i v, ~ In i (keys m) -> ufms (update_field_meta l i v) m = update_field_meta (ufms l m) i v.
Proof.
  unfold ufms. induction m as [|[j w] t IH]; intros l i v H; auto. cbn [fold_left fst snd]. cbn in H.
  rewrite (ufm_comm l i v j w) by (intros E; apply H; auto). apply IH. tauto.
Qed.
Lemma ufms_comm : forall m n l, (forall i, In i (keys m) -> ~ In i (keys n)) -> ufms (ufms l m) n = ufms (ufms l n) m.
Proof.
  induction m as [|[i v] t IH]; intros n l H; auto. cbn [ufms fold_left fst snd] in *. fold (ufms (update_field_meta l i v) t). fold (ufms (update_field_meta (ufms l n) i v) t).
  rewrite IH by (intros j Hj; apply H; right; auto). rewrite ufms_one; auto. apply H. now left.
Qed.
Lemma schema_commute : forall a b c c1 c2 s, is_config a -> is_config b -> conflicts_with b a = false ->
  snd (apply_config b c1 (snd (apply_config a c s))) = snd (apply_config a c2 (snd (apply_config b c s))).
Proof.
  intros a b c c1 c2 s Ha Hb Hc.
  assert (Hn : ~ (sets_schema_meta b /\ sets_schema_meta a) /\ ~ exists id, sets_field_meta b id /\ sets_field_meta a id).
  { split; intros C; assert (conflicts_with b a = true); try congruence; apply config_conflict; auto. }
  destruct Hn as [N1 N2]. destruct a; cbn in Ha; try tauto. destruct b; cbn in Hb; try tauto. cbn [apply_config snd sets_schema_meta sets_field_meta] in *.
  destruct smeta as [s1|], smeta0 as [s2|]; try tauto; destruct fmeta as [f1|], fmeta0 as [f2|]; cbn [sc_fields sc_meta]; try reflexivity; f_equal.
  all: match goal with |- fold_left ?f ?m (fold_left ?f ?n ?l) = _ => apply (ufms_comm n m l) end; intros i A1 A2; apply N2; eauto.
Qed.

(* ---- feature flags ---- *)
Lemma flags_exact : forall fs c b r w, feature_flags fs c b = BOk (r, w) ->
  (N.testbit r 0 = true <-> exists f, In f fs /\ f_del f <> None) /\
  (N.testbit r 1 = true <-> (exists f, In f fs /\ f_rowids f <> None) \/ b = true) /\
  (N.testbit r 1 = true -> forall f, In f fs -> f_rowids f <> None) /\
  (N.testbit w 3 = true <-> c <> []) /\ N.testbit w 0 = N.testbit r 0 /\ N.testbit w 1 = N.testbit r 1 /\
  (forall n, n <> 0 -> n <> 1 -> N.testbit r n = false) /\ (forall n, n <> 0 -> n <> 1 -> n <> 3 -> N.testbit w n = false).
Proof.
  intros fs c b r w H. unfold feature_flags in H.
  assert (D : existsb (fun f => is_some (f_del f)) fs = true <-> exists f, In f fs /\ f_del f <> None).
  { rewrite existsb_exists. split; intros [f [A B]]; exists f; split; auto; destruct (f_del f); cbn in *; congruence. }
  assert (R : existsb (fun f => is_some (f_rowids f)) fs = true <-> exists f, In f fs /\ f_rowids f <> None).
  { rewrite existsb_exists. split; intros [f [A B]]; exists f; split; auto; destruct (f_rowids f); cbn in *; congruence. }
  assert (A : forallb (fun f => is_some (f_rowids f)) fs = true -> forall f, In f fs -> f_rowids f <> None).
  { rewrite forallb_forall. intros H1 f Hf. specialize (H1 f Hf). destruct (f_rowids f); cbn in *; congruence. }
  assert (E : existsb (fun f => is_some (f_rowids f)) fs || b = true <-> (exists f, In f fs /\ f_rowids f <> None) \/ b = true) by (rewrite orb_true_iff, R; tauto).
  set (del := if existsb (fun f => is_some (f_del f)) fs then _ else _) in H. set (cfg := match c with [] => 0 | _ => FLAG_TABLE_CONFIG end) in H.
  assert (C : cfg = if match c with [] => true | _ => false end then 0 else 8) by (unfold cfg; destruct c; reflexivity).
  assert (Cn : c <> [] <-> match c with [] => true | _ => false end = false) by (destruct c; split; congruence).
  assert (Bits : forall n, n <> 0 -> n <> 1 -> n <> 3 -> N.testbit 1 n = false /\ N.testbit 2 n = false /\ N.testbit 8 n = false).
  { intros n H0 H1 H3. change 1 with (2 ^ 0). change 2 with (2 ^ 1). change 8 with (2 ^ 3). now rewrite !N.pow2_bits_false by auto. }
  assert (Bits2 : forall n, n <> 0 -> n <> 1 -> N.testbit 1 n = false /\ N.testbit 2 n = false).
  { intros n H0 H1. change 1 with (2 ^ 0). change 2 with (2 ^ 1). now rewrite !N.pow2_bits_false by auto. }
  unfold del in *. clear del. rewrite C in *. clear cfg C. rewrite Cn. clear Cn.
  destruct (existsb (fun f => is_some (f_rowids f)) fs || b) eqn:Es.
  - destruct (forallb (fun f => is_some (f_rowids f)) fs) eqn:Ea; [|discriminate]. injection H as <- <-.
    destruct (existsb (fun f => is_some (f_del f)) fs); destruct (match c with [] => true | _ => false end);
      unfold FLAG_DELETION_FILES, FLAG_MOVE_STABLE_ROW_IDS, FLAG_TABLE_CONFIG; rewrite <- D, <- E;
      (repeat split; auto; try (cbn; congruence); intros; rewrite ?N.lor_spec, ?N.bits_0; cbn [orb];
       try (destruct (Bits2 n); auto; fail); try (destruct (Bits n) as [X1 [X2 X3]]; auto; rewrite ?X1, ?X2, ?X3; reflexivity);
       try (destruct (Bits2 n) as [X1 X2]; auto; rewrite ?X1, ?X2; reflexivity)).
  - injection H as <- <-.
    destruct (existsb (fun f => is_some (f_del f)) fs); destruct (match c with [] => true | _ => false end);
      unfold FLAG_DELETION_FILES, FLAG_MOVE_STABLE_ROW_IDS, FLAG_TABLE_CONFIG; rewrite <- D, <- E;
      (repeat split; auto; try (cbn; congruence); intros; rewrite ?N.lor_spec, ?N.bits_0; cbn [orb];
       try (destruct (Bits2 n); auto; fail); try (destruct (Bits n) as [X1 [X2 X3]]; auto; rewrite ?X1, ?X2, ?X3; reflexivity);
       try (destruct (Bits2 n) as [X1 X2]; auto; rewrite ?X1, ?X2; reflexivity)).
Qed.
Lemma history_flags : forall h e, history (h ++ [e]) -> wc_auto_flags (e_cfg e) = true ->
  let m := e_man e in
  (N.testbit (m_rflags m) 0 = true <-> needs_deletion_files m) /\
  (N.testbit (m_rflags m) 1 = true <-> has_row_ids m \/ wc_stable (e_cfg e) = true) /\
  (N.testbit (m_rflags m) 1 = true -> forall f, In f (m_fragments m) -> f_rowids f <> None) /\
  (N.testbit (m_wflags m) 3 = true <-> m_config m <> []) /\
  N.testbit (m_wflags m) 0 = N.testbit (m_rflags m) 0 /\ N.testbit (m_wflags m) 1 = N.testbit (m_rflags m) 1 /\
  can_read_dataset (m_rflags m) = true /\ can_write_dataset (m_wflags m) = true.
Proof.
  intros h e H Ha m. apply history_snoc in H as [_ [_ [_ [file H]]]].
  assert (exists m0, finish (e_cfg e) m0 = BOk m) as [m0 F].
  { apply commit_inv in H as [[v [le [old [_ [_ [_ [_ H]]]]]]]|[m0 [_ [H _]]]]; eauto. }
  apply finish_inv in F as [_ [_ [_ [_ [_ [_ [_ [_ [F _]]]]]]]]]. specialize (F Ha). pose proof F as F2. apply flags_exact in F as [A1 [A2 [A3 [A4 [A5 [A6 [A7 A8]]]]]]].
  repeat (split; [assumption|]).
  unfold feature_flags in F2. unfold can_read_dataset, can_write_dataset.
  destruct (_ || _); [destruct (forallb _ _); [|discriminate]|]; injection F2 as <- <-; destruct (existsb (fun f => is_some (f_del f)) (m_fragments m)); destruct (m_config m); cbn; auto.
Qed.
