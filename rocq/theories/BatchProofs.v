(* C53: a batch of appends. *)
From Coq Require Import List Arith NArith ZArith Bool Lia Permutation.
From Coq Require Import ZifyBool ZifyN ZifyNat.
From Verif Require Import Lib AMap TreeMapModel SerdeModel TxnModel TxnSpec TxnLemmas TxnIdsProofs TxnFrame TxnRowIds BatchModel.
Import ListNotations.
Local Open Scope N_scope.

(** * Specification *)
(* the same table, under whatever version number, tag and transaction file *)
Definition same_table (a b : manifest) : Prop :=
  m_schema a = m_schema b /\ m_fragments a = m_fragments b /\ m_rflags a = m_rflags b /\ m_wflags a = m_wflags b /\
  m_max a = m_max b /\ m_next_row a = m_next_row b /\ m_config a = m_config b.
(* transactions committed one after the other *)
Inductive one_by_one (c : wconfig) : list entry -> list txn -> list entry -> Prop :=
| ob_nil : forall h, one_by_one c h [] h
| ob_cons : forall h t ts file m ix h', commit_on h t file c = BOk (m, ix) ->
    Forall (fun e => conflicts_with (t_op t) (t_op (e_txn e)) = false) (skipn (N.to_nat (t_read t)) h) ->
    one_by_one c (h ++ [{| e_txn := t; e_cfg := c; e_man := m; e_idx := ix |}]) ts h' -> one_by_one c h (t :: ts) h'.
(* an append of newly written fragments *)
Definition new_append (t : txn) : Prop := exists l, t_op t = Append l /\ Forall (fun f => f_id f = 0 /\ f_rowids f = None) l.
(* a manifest as its last commit left it, when committed with the same configuration *)
Definition settled (c : wconfig) (m : manifest) : Prop := man_wf m /\ finish c m = BOk m /\ wc_auto_flags c = true /\ wc_stable c = uses_stable m.

(** * Conflicts *)
Lemma append_conflicts : forall a b o, conflicts_with (Append a) o = conflicts_with (Append b) o.
Proof. reflexivity. Qed.
Lemma min_le : forall ts a, fold_left (fun acc u => N.min acc (t_read u)) ts a <= a /\ forall u, In u ts -> fold_left (fun acc u => N.min acc (t_read u)) ts a <= t_read u.
Proof.
  induction ts as [|t r IH]; intros a; cbn [fold_left]; [split; [lia|intros ? []]|]. destruct (IH (N.min a (t_read t))) as [A B]. split; [lia|]. intros u [<-|I]; [lia|auto].
Qed.
Lemma min_in : forall ts a, fold_left (fun acc u => N.min acc (t_read u)) ts a = a \/ exists u, In u ts /\ fold_left (fun acc u => N.min acc (t_read u)) ts a = t_read u.
Proof.
  induction ts as [|t r IH]; intros a; cbn [fold_left]; [auto|]. destruct (IH (N.min a (t_read t))) as [->|[u [I E]]]; [|right; exists u; split; [right; exact I|exact E]].
  destruct (N.min_spec a (t_read t)) as [[_ ->]|[_ ->]]; [auto|]. right. exists t. split; [left; reflexivity|reflexivity].
Qed.
Lemma merge_inv : forall ts u t, merge_batch ts u = BOk t -> ts <> [] /\ Forall (fun t => is_append t = true) ts /\ t_op t = Append (flat_map appended_fragments ts) /\
  (exists v, In v ts /\ t_read t = t_read v) /\ (forall v, In v ts -> t_read t <= t_read v).
Proof.
  intros [|a r] u t E; [discriminate|]. unfold merge_batch in E. destruct (existsb _ _) eqn:X; [discriminate|]. injection E as <-. split; [discriminate|]. split; [|split; [reflexivity|]].
  - apply Forall_forall. intros v I. destruct (is_append v) eqn:P; [reflexivity|]. assert (Y : existsb (fun t => negb (is_append t)) (a :: r) = true) by (apply existsb_exists; exists v; rewrite P; auto). congruence.
  - cbn [t_read]. destruct (min_le r (t_read a)) as [A B]. split; [|intros v [<-|I]; [exact A|auto]].
    destruct (min_in r (t_read a)) as [->|[v [I ->]]]; [exists a|exists v]; split; auto; [left; reflexivity|right; exact I].
Qed.
Lemma skipn_in : forall {A} (l : list A) a b x, (a <= b)%nat -> In x (skipn b l) -> In x (skipn a l).
Proof.
  intros A l a b x L I. assert (E : skipn b l = skipn (b - a) (skipn a l)) by (rewrite skipn_skipn'; f_equal; lia). rewrite E in I.
  rewrite <- (firstn_skipn (b - a) (skipn a l)). apply in_or_app. right. exact I.
Qed.
(* the merged transaction is accepted exactly when each of its parts is, against everything after the oldest read version *)
Theorem batch_check : forall ts u t h, merge_batch ts u = BOk t ->
  (Forall (fun e => conflicts_with (t_op t) (t_op (e_txn e)) = false) (skipn (N.to_nat (t_read t)) h) <->
   forall v, In v ts -> Forall (fun e => conflicts_with (t_op v) (t_op (e_txn e)) = false) (skipn (N.to_nat (t_read t)) h)).
Proof.
  intros ts u t h E. destruct (merge_inv ts u t E) as (NE & AP & OP & _ & _). rewrite Forall_forall in AP. split.
  - intros F v I. specialize (AP v I). unfold is_append in AP. destruct (t_op v) eqn:V; try discriminate. rewrite OP in F. exact F.
  - intros F. destruct ts as [|v r]; [contradiction|]. specialize (F v (or_introl eq_refl)). specialize (AP v (or_introl eq_refl)). unfold is_append in AP. destruct (t_op v) eqn:V; try discriminate. rewrite OP. exact F.
Qed.
(* so each part passes its own check *)
Theorem batch_check_each : forall ts u t h v, merge_batch ts u = BOk t -> In v ts ->
  Forall (fun e => conflicts_with (t_op t) (t_op (e_txn e)) = false) (skipn (N.to_nat (t_read t)) h) ->
  Forall (fun e => conflicts_with (t_op v) (t_op (e_txn e)) = false) (skipn (N.to_nat (t_read v)) h).
Proof.
  intros ts u t h v E I F. apply (proj1 (batch_check ts u t h E)) with (v := v) in F; [|exact I]. rewrite Forall_forall in *. intros e J. apply F. revert J. apply skipn_in.
  destruct (merge_inv ts u t E) as (_ & _ & _ & _ & LE). specialize (LE v I). lia.
Qed.

(** * What an append builds *)
Definition next_of (m : manifest) : N := match max_fragment_id m with Some i => i + 1 | None => 0 end.
Definition rows_of (m : manifest) : option N := if uses_stable m then Some (m_next_row m) else None.
Definition fresh (l : list fragment) : Prop := Forall (fun f => f_id f = 0 /\ f_rowids f = None) l.
Lemma fresh_ids_from : forall l n, Forall (fun f => f_id f = 0) l -> map f_id (fst (fragments_with_ids l n)) = nrange n (length l) /\ snd (fragments_with_ids l n) = n + N.of_nat (length l).
Proof.
  induction l as [|f t IH]; intros n F; [cbn; split; [reflexivity|lia]|]. inversion F; subst. cbn [fragments_with_ids length]. rewrite H1, N.eqb_refl. specialize (IH (n + 1) H2). destruct (fragments_with_ids t (n + 1)). cbn in *. destruct IH as [A B]. rewrite A, B. split; [reflexivity|lia].
Qed.
Definition app_spec (m : manifest) (l : list fragment) (fs : list fragment) (nr : option N) : Prop :=
  exists new, with_row_ids (rows_of m) (fst (fragments_with_ids l (next_of m))) = BOk (new, nr) /\ fs = m_fragments m ++ new.
Lemma next_above : forall m f, man_wf m -> In f (m_fragments m) -> f_id f < next_of m.
Proof.
  intros m f W I. unfold next_of, max_fragment_id. destruct W as (S & B & _). specialize (B (f_id f) (in_map f_id _ _ I)).
  destruct (m_max m =? 0) eqn:Z; [|lia]. destruct (m_fragments m) as [|g t] eqn:E; [contradiction|]. pose proof (maxN_bound (map f_id (g :: t)) (f_id f) (in_map f_id _ _ I)). lia.
Qed.
Lemma append_sorted : forall m l new nr, man_wf m -> Forall (fun f => f_id f = 0) l -> with_row_ids (rows_of m) (fst (fragments_with_ids l (next_of m))) = BOk (new, nr) ->
  sinc (map f_id (m_fragments m ++ new)) /\ sort_frags (m_fragments m ++ new) = m_fragments m ++ new.
Proof.
  intros m l new nr W F E. assert (SI : sinc (map f_id (m_fragments m ++ new))).
  { rewrite map_app. apply sinc_app. split; [apply W|]. apply with_row_ids_ids in E. rewrite E. destruct (fresh_ids_from l (next_of m) F) as [-> _]. split; [apply nrange_sinc|].
    intros x y X Y. apply in_map_iff in X. destruct X as [f [<- X]]. apply nrange_In in Y. pose proof (next_above m f W X). lia. }
  split; [exact SI|]. apply sort_frags_id, sinc_nondec, SI.
Qed.
Definition app_build (c : wconfig) (t : txn) (file : N) (m : manifest) (l : list fragment) : bres manifest :=
  bbind (with_row_ids (rows_of m) (fst (fragments_with_ids l (next_of m)))) (fun '(new, nr) =>
  bbind (feature_flags (m_fragments m ++ new) (m_config m) (wc_stable c)) (fun '(rf, wf) =>
  bbind (update_max_fragment_id (m_max m) (m_fragments m ++ new)) (fun mx =>
  BOk {| m_version := m_version m + 1; m_schema := m_schema m; m_fragments := m_fragments m ++ new; m_rflags := rf; m_wflags := wf; m_max := mx;
         m_next_row := match nr with Some n => n | None => m_next_row m end; m_config := m_config m; m_tag := t_tag t; m_txn := Some file |}))).
Lemma update_max_again : forall mx fs mx', update_max_fragment_id mx fs = BOk mx' -> update_max_fragment_id mx' fs = BOk mx'.
Proof.
  intros mx fs mx'. unfold update_max_fragment_id. destruct (two32 <=? maxN (map f_id fs)) eqn:T; [discriminate|]. intros [= <-]. f_equal.
  destruct (mx <? maxN (map f_id fs)) eqn:L; [destruct (maxN (map f_id fs) <? maxN (map f_id fs)) eqn:X; [lia|reflexivity]|rewrite L; reflexivity].
Qed.
Lemma commit_append : forall c t l file m ixs, settled c m -> fresh l -> t_op t = Append l ->
  bbind (build_manifest t (Some m) ixs file c) (fun '(m, ix) => bbind (finish c m) (fun m' => BOk (m', ix))) = bbind (app_build c t file m l) (fun m' => BOk (m', ixs)).
Proof.
  intros c t l file m ixs (W & FI & AF & ST) FR OP. unfold build_manifest, app_build. rewrite OP, ST. rewrite andb_negb_r. cbn [bbind].
  assert (SN : start_next_row (Some m) c = BOk (rows_of m)) by (unfold start_next_row, rows_of; rewrite ST; destruct (uses_stable m); reflexivity).
  rewrite SN. cbn [bbind]. unfold apply_op. fold (next_of m).
  destruct (with_row_ids (rows_of m) (fst (fragments_with_ids l (next_of m)))) as [[new nr]| |] eqn:E; [|reflexivity..]. cbn [bbind].
  destruct (append_sorted m l new nr W (Forall_impl _ (fun f H => proj1 H) FR) E) as [_ ->]. rewrite AF.
  destruct (feature_flags (m_fragments m ++ new) (m_config m) (uses_stable m)) as [[rf wf]| |] eqn:FF; [|reflexivity..]. cbn [bbind].
  destruct (update_max_fragment_id (m_max m) (m_fragments m ++ new)) as [mx| |] eqn:UM; [|reflexivity..]. cbn [bbind apply_config]. unfold finish. cbn [m_fragments m_config m_max m_version m_schema m_next_row m_tag m_txn]. rewrite AF, ST, FF. cbn [bbind]. rewrite (update_max_again _ _ _ UM). reflexivity.
Qed.
Lemma stable_bit : forall fs cfg st rf wf, feature_flags fs cfg st = BOk (rf, wf) -> negb (N.land rf FLAG_MOVE_STABLE_ROW_IDS =? 0) = existsb (fun f => is_some (f_rowids f)) fs || st.
Proof.
  intros fs cfg st rf wf. unfold feature_flags. destruct (existsb _ _ || st) eqn:E; [destruct (forallb _ _); [|discriminate]|]; intros [= <- <-]; destruct (existsb (fun f => is_some (f_del f)) fs); reflexivity.
Qed.
Lemma settled_flags : forall c m, settled c m -> feature_flags (m_fragments m) (m_config m) (wc_stable c) = BOk (m_rflags m, m_wflags m) /\ update_max_fragment_id (m_max m) (m_fragments m) = BOk (m_max m) /\
  (wc_stable c = false -> existsb (fun f => is_some (f_rowids f)) (m_fragments m) = false).
Proof.
  intros c m (W & FI & AF & ST). unfold finish in FI. rewrite AF in FI. apply bbind_ok in FI as [[rf wf] [A FI]]. apply bbind_ok in FI as [mx [B FI]]. destruct m as [v sc fs rf' wf' mx' nr cf tg tx]. cbn [m_version m_schema m_fragments m_rflags m_wflags m_max m_next_row m_config m_tag m_txn] in *. injection FI as <- <- <-.
  split; [exact A|]. split; [exact B|]. intros S. apply stable_bit in A. rewrite S in A. unfold uses_stable in ST. cbn [m_rflags] in ST. rewrite A, S, orb_false_r in ST. symmetry. exact ST.
Qed.
Lemma with_rows_new : forall nr l new nr', Forall (fun f => f_rowids f = None) l -> with_row_ids nr l = BOk (new, nr') ->
  match nr with Some _ => Forall (fun f => is_some (f_rowids f) = true) new | None => new = l /\ nr' = None end.
Proof.
  intros [n|] l new nr' F E; cbn [with_row_ids] in E.
  - apply bbind_ok in E as [[a b] [E1 [= <- <-]]]. apply assign_spec in E1. destruct E1 as (_ & _ & _ & _ & _ & _ & H). eapply Forall_impl; [|exact H]. intros f (r & k & -> & _). reflexivity.
  - injection E as <- <-. auto.
Qed.
Lemma fresh_with_ids : forall l n, fresh l -> Forall (fun f => f_rowids f = None) (fst (fragments_with_ids l n)).
Proof.
  intros l n F. apply Forall_forall. intros f I. destruct (with_ids_In l n f I) as [g [J [[_ ->]|[_ [i [-> _]]]]]]; unfold fresh in F; rewrite Forall_forall in F; apply (F g J).
Qed.
(* intermediate flags are computed whenever the final ones are *)
Lemma flags_step : forall c m l new nr, settled c m -> fresh l -> with_row_ids (rows_of m) (fst (fragments_with_ids l (next_of m))) = BOk (new, nr) ->
  exists rf wf, feature_flags (m_fragments m ++ new) (m_config m) (wc_stable c) = BOk (rf, wf) /\ negb (N.land rf FLAG_MOVE_STABLE_ROW_IDS =? 0) = wc_stable c.
Proof.
  intros c m l new nr SE FR E. destruct (settled_flags c m SE) as (FF & _ & NS). destruct SE as (W & FI & AF & ST).
  apply (with_rows_new _ _ _ _ (fresh_with_ids l _ FR)) in E. unfold rows_of in E.
  unfold feature_flags in *. destruct (wc_stable c) eqn:SC.
  - rewrite <- ST in E. rewrite orb_true_r in FF. rewrite orb_true_r. destruct (forallb (fun f => is_some (f_rowids f)) (m_fragments m)) eqn:A; [|discriminate]. rewrite forallb_app, A.
    replace (forallb (fun f => is_some (f_rowids f)) new) with true by (symmetry; apply forallb_forall; rewrite Forall_forall in E; exact E). cbn [andb]. eexists. eexists. split; [reflexivity|]. match goal with |- context [if ?b then _ else _] => destruct b end; reflexivity.
  - rewrite <- ST in E. destruct E as [-> ->]. specialize (NS eq_refl). rewrite existsb_app, NS.
    replace (existsb (fun f => is_some (f_rowids f)) (fst (fragments_with_ids l (next_of m)))) with false.
    + cbn [orb]. eexists. eexists. split; [reflexivity|]. match goal with |- context [if ?b then _ else _] => destruct b end; reflexivity.
    + symmetry. apply not_true_is_false. intros X. apply existsb_exists in X. destruct X as [f [I X]]. pose proof (fresh_with_ids l (next_of m) FR) as G. rewrite Forall_forall in G. rewrite (G f I) in X. discriminate.
Qed.
Lemma app_build_settled : forall c t file m l m1, settled c m -> fresh l -> app_build c t file m l = BOk m1 -> settled c m1.
Proof.
  intros c t file m l m1 SE FR E. unfold app_build in E. apply bbind_ok in E as [[new nr] [E1 E]]. apply bbind_ok in E as [[rf wf] [E2 E]]. apply bbind_ok in E as [mx [E3 E]]. injection E as <-.
  destruct (flags_step c m l new nr SE FR E1) as (rf' & wf' & E4 & E5). rewrite E2 in E4. injection E4 as <- <-.
  destruct (append_sorted m l new nr (proj1 SE) (Forall_impl _ (fun f H => proj1 H) FR) E1) as [SI _]. destruct SE as (W & FI & AF & ST).
  unfold settled. cbn. split; [|split; [|split; [exact AF|]]].
  - split; [exact SI|]. unfold frag_ids. cbn. unfold update_max_fragment_id in E3. destruct (two32 <=? _) eqn:T; [discriminate|]. injection E3 as <-. destruct W as (_ & _ & W).
    destruct (m_max m <? maxN (map f_id (m_fragments m ++ new))) eqn:L; (split; [intros i I; pose proof (maxN_bound _ _ I); lia|lia]).
  - unfold finish. cbn. rewrite AF, E2. cbn [bbind]. rewrite (update_max_again _ _ _ E3). reflexivity.
  - unfold uses_stable. cbn. symmetry. exact E5.
Qed.
Lemma maxN_app : forall a b, maxN (a ++ b) = N.max (maxN a) (maxN b).
Proof. induction a as [|x t IH]; intros b; cbn [app maxN fold_right]; [fold (maxN b); lia|]. fold (maxN (t ++ b)) (maxN t). rewrite IH. lia. Qed.
Lemma maxN_nrange : forall n a, maxN (nrange a (S n)) = a + N.of_nat n.
Proof.
  induction n as [|n IH]; intros a; [cbn; lia|]. cbn [nrange]. cbn [nrange] in IH. cbn [maxN fold_right] in *. unfold maxN in *. specialize (IH (a + 1)). cbn [fold_right] in IH. rewrite IH. lia.
Qed.
Lemma next_of_step : forall c t file m l m1, settled c m -> fresh l -> app_build c t file m l = BOk m1 -> next_of m1 = next_of m + N.of_nat (length l).
Proof.
  intros c t file m l m1 SE FR E. unfold app_build in E. apply bbind_ok in E as [[new nr] [E1 E]]. apply bbind_ok in E as [[rf wf] [E2 E]]. apply bbind_ok in E as [mx [E3 E]]. injection E as <-.
  pose proof (with_row_ids_ids _ _ _ _ E1) as ID. destruct (fresh_ids_from l (next_of m) (Forall_impl _ (fun f H => proj1 H) FR)) as [ID2 _]. rewrite ID2 in ID.
  assert (MX : mx = N.max (m_max m) (N.max (maxN (map f_id (m_fragments m))) (maxN (map f_id new)))).
  { unfold update_max_fragment_id in E3. rewrite map_app, maxN_app in E3. destruct (two32 <=? _); [discriminate|]. injection E3 as <-. destruct (m_max m <? _) eqn:L; lia. }
  destruct SE as ((S & B & M) & _). assert (BM : maxN (map f_id (m_fragments m)) <= m_max m) by (apply maxN_le; exact B).
  rewrite ID in MX. unfold next_of at 1. unfold max_fragment_id. cbn [m_max m_fragments].
  destruct (length l) as [|k] eqn:L.
  - destruct new; [|discriminate]. rewrite app_nil_r. cbn in MX. assert (mx = m_max m) as -> by (destruct (m_max m); lia). unfold next_of, max_fragment_id. destruct (m_max m =? 0); [destruct (m_fragments m)|]; lia.
  - rewrite maxN_nrange in MX. assert (LE : m_max m <= next_of m + N.of_nat k).
    { unfold next_of, max_fragment_id. destruct (m_max m =? 0) eqn:Z; lia. }
    assert (MX' : mx = next_of m + N.of_nat k) by lia. clear MX. destruct (mx =? 0) eqn:Z; [|lia].
    destruct (m_fragments m ++ new) as [|g r] eqn:F; [destruct (m_fragments m); [cbn in F; subst new; cbn [nrange map] in ID; discriminate ID|discriminate F]|].
    rewrite <- F, map_app, maxN_app, ID, maxN_nrange. lia.
Qed.
Lemma assign_app : forall a b n, assign_row_ids n (a ++ b) = bbind (assign_row_ids n a) (fun '(a', n') => bbind (assign_row_ids n' b) (fun '(b', n'') => BOk (a' ++ b', n''))).
Proof.
  induction a as [|f t IH]; intros b n; cbn [app assign_row_ids bbind]; [destruct (assign_row_ids n b) as [[? ?]| |]; reflexivity|]. destruct (f_rows f) as [k|]; [|reflexivity]. rewrite IH. destruct (assign_row_ids (n + k) t) as [[a' n']| |]; [|reflexivity..]. cbn [bbind]. destruct (assign_row_ids n' b) as [[b' n'']| |]; reflexivity.
Qed.
Lemma with_rows_app : forall a b nr, with_row_ids nr (a ++ b) = bbind (with_row_ids nr a) (fun '(a', nr') => bbind (with_row_ids nr' b) (fun '(b', nr'') => BOk (a' ++ b', nr''))).
Proof.
  intros a b [n|]; cbn [with_row_ids]; [|reflexivity]. rewrite assign_app. destruct (assign_row_ids n a) as [[a' n']| |]; [|reflexivity..]. cbn [bbind with_row_ids]. destruct (assign_row_ids n' b) as [[b' n'']| |]; reflexivity.
Qed.
Lemma rows_of_step : forall c t file m l m1 new nr, settled c m -> fresh l -> app_build c t file m l = BOk m1 ->
  with_row_ids (rows_of m) (fst (fragments_with_ids l (next_of m))) = BOk (new, nr) -> rows_of m1 = nr /\ m_fragments m1 = m_fragments m ++ new /\ m_config m1 = m_config m /\ m_schema m1 = m_schema m /\
  m_next_row m1 = match nr with Some n => n | None => m_next_row m end /\ update_max_fragment_id (m_max m) (m_fragments m ++ new) = BOk (m_max m1).
Proof.
  intros c t file m l m1 new nr SE FR E E1. pose proof (app_build_settled c t file m l m1 SE FR E) as SE1. unfold app_build in E. rewrite E1 in E. cbn [bbind] in E. apply bbind_ok in E as [[rf wf] [E2 E]]. apply bbind_ok in E as [mx [E3 E]]. injection E as <-.
  cbn. repeat split; [|exact E3]. destruct SE as (_ & _ & _ & ST). destruct SE1 as (_ & _ & _ & ST1). unfold rows_of in *. rewrite <- ST1. rewrite <- ST in E1. cbn [m_next_row].
  destruct (wc_stable c); cbn [with_row_ids] in E1; [apply bbind_ok in E1 as [[a b] [_ [= <- <-]]]; reflexivity|]. injection E1 as <- <-. reflexivity.
Qed.
Lemma with_ids_fresh_app : forall a b n, fresh a -> fst (fragments_with_ids (a ++ b) n) = fst (fragments_with_ids a n) ++ fst (fragments_with_ids b (n + N.of_nat (length a))).
Proof. intros a b n F. rewrite with_ids_app. destruct (fresh_ids_from a n (Forall_impl _ (fun f H => proj1 H) F)) as [_ ->]. reflexivity. Qed.
Lemma update_max_app : forall mx a b, update_max_fragment_id mx (a ++ b) = bbind (update_max_fragment_id mx a) (fun mx' => update_max_fragment_id mx' (a ++ b)).
Proof.
  intros mx a b. unfold update_max_fragment_id. rewrite map_app, maxN_app. destruct (two32 <=? maxN (map f_id a)) eqn:A; cbn [bbind].
  - destruct (two32 <=? N.max _ _) eqn:B; [reflexivity|lia].
  - destruct (two32 <=? N.max _ _) eqn:B; [reflexivity|]. f_equal. destruct (mx <? maxN (map f_id a)) eqn:C, (mx <? N.max (maxN (map f_id a)) (maxN (map f_id b))) eqn:D; try lia;
    match goal with |- context [if ?b then _ else _] => destruct b eqn:X end; lia.
Qed.
(* appending two lists of fragments at once or in turn *)
Lemma append_split : forall c t f t1 f1 t2 f2 m a b, settled c m -> fresh a -> fresh b -> forall R : bres manifest, R = app_build c t f m (a ++ b) ->
  (forall m2, R = BOk m2 -> exists m1 m2', app_build c t1 f1 m a = BOk m1 /\ app_build c t2 f2 m1 b = BOk m2' /\ same_table m2 m2') /\
  (forall m1 m2', app_build c t1 f1 m a = BOk m1 -> app_build c t2 f2 m1 b = BOk m2' -> exists m2, R = BOk m2 /\ same_table m2 m2').
Proof.
  intros c t f t1 f1 t2 f2 m a b SE FA FB R ->.
  assert (KEY : forall m1 new nr, app_build c t1 f1 m a = BOk m1 -> with_row_ids (rows_of m) (fst (fragments_with_ids a (next_of m))) = BOk (new, nr) ->
    (forall m2, app_build c t f m (a ++ b) = BOk m2 -> exists m2', app_build c t2 f2 m1 b = BOk m2' /\ same_table m2 m2') /\
    (forall m2', app_build c t2 f2 m1 b = BOk m2' -> exists m2, app_build c t f m (a ++ b) = BOk m2 /\ same_table m2 m2')).
  { intros m1 new nr B E1. destruct (rows_of_step c t1 f1 m a m1 new nr SE FA B E1) as (R1 & R2 & R3 & R4 & R5 & R6). pose proof (next_of_step c t1 f1 m a m1 SE FA B) as R7.
    unfold app_build at 1 4. rewrite with_ids_fresh_app by exact FA. rewrite with_rows_app, E1. cbn [bbind]. rewrite <- R7.
    unfold app_build. rewrite R1. destruct (with_row_ids nr (fst (fragments_with_ids b (next_of m1)))) as [[new2 nr2]| |] eqn:E2; [|split; intros ? X; discriminate X..]. cbn [bbind].
    rewrite R2, R3, <- app_assoc. destruct (feature_flags (m_fragments m ++ new ++ new2) (m_config m) (wc_stable c)) as [[rf wf]| |]; [|split; intros ? X; discriminate X..]. cbn [bbind].
    assert (UM : update_max_fragment_id (m_max m1) (m_fragments m ++ new ++ new2) = update_max_fragment_id (m_max m) (m_fragments m ++ new ++ new2)).
    { rewrite app_assoc, (update_max_app (m_max m)), R6. reflexivity. }
    rewrite UM. destruct (update_max_fragment_id (m_max m) (m_fragments m ++ new ++ new2)) as [mx| |]; [|split; intros ? X; discriminate X..]. cbn [bbind].
    assert (NR : match nr2 with Some n => n | None => match nr with Some n => n | None => m_next_row m end end = match nr2 with Some n => n | None => m_next_row m end).
    { destruct nr2; [reflexivity|]. destruct nr; [|reflexivity]. cbn [with_row_ids] in E2. apply bbind_ok in E2 as [[? ?] [_ X]]. discriminate X. }
    split; intros x [= <-]; eexists; (split; [reflexivity|]); unfold same_table; cbn; rewrite R4, R5, NR; repeat split. }
  destruct (with_row_ids (rows_of m) (fst (fragments_with_ids a (next_of m)))) as [[new nr]| |] eqn:E1.
  - split.
    + intros m2 E. assert (B : exists m1, app_build c t1 f1 m a = BOk m1).
      { unfold app_build in *. rewrite E1. cbn [bbind]. destruct (flags_step c m a new nr SE FA E1) as (rf & wf & -> & _). cbn [bbind].
        rewrite with_ids_fresh_app in E by exact FA. rewrite with_rows_app, E1 in E. cbn [bbind] in E. apply bbind_ok in E as [[n2 r2] [X E]]. apply bbind_ok in X as [[n3 r3] [_ [= <- <-]]]. apply bbind_ok in E as [[? ?] [_ E]]. apply bbind_ok in E as [mx [E _]].
        rewrite app_assoc, update_max_app in E. apply bbind_ok in E as [mx1 [-> _]]. cbn [bbind]. eauto. }
      destruct B as [m1 B]. destruct (KEY m1 new nr B eq_refl) as [K _]. destruct (K m2 E) as [m2' [X Y]]. exists m1, m2'. auto.
    + intros m1 m2' B C. destruct (KEY m1 new nr B eq_refl) as [_ K]. exact (K m2' C).
  - split; [intros m2 E|intros m1 m2' E _]; unfold app_build in E; [rewrite with_ids_fresh_app in E by exact FA; rewrite with_rows_app, E1 in E|rewrite E1 in E]; discriminate E.
  - split; [intros m2 E|intros m1 m2' E _]; unfold app_build in E; [rewrite with_ids_fresh_app in E by exact FA; rewrite with_rows_app, E1 in E|rewrite E1 in E]; discriminate E.
Qed.
Lemma same_table_refl : forall m, same_table m m.
Proof. intros m. repeat split. Qed.
Lemma same_table_trans : forall a b c, same_table a b -> same_table b c -> same_table a c.
Proof. intros a b c (A1 & A2 & A3 & A4 & A5 & A6 & A7) (B1 & B2 & B3 & B4 & B5 & B6 & B7). repeat split; congruence. Qed.
Lemma app_build_any : forall c t f t' f' m l m1, app_build c t f m l = BOk m1 -> exists m2, app_build c t' f' m l = BOk m2 /\ same_table m1 m2.
Proof.
  intros c t f t' f' m l m1 E. unfold app_build in *. destruct (with_row_ids _ _) as [[new nr]| |]; try discriminate. cbn [bbind] in *. destruct (feature_flags _ _ _) as [[rf wf]| |]; try discriminate. cbn [bbind] in *. destruct (update_max_fragment_id _ _) as [mx| |]; try discriminate. cbn [bbind] in *. injection E as <-. eexists. split; [reflexivity|]. repeat split.
Qed.
Lemma new_append_inv : forall t, new_append t -> t_op t = Append (appended_fragments t) /\ fresh (appended_fragments t).
Proof. intros t [l [E F]]. unfold appended_fragments. rewrite E. auto. Qed.
Lemma fresh_flat : forall ts, Forall new_append ts -> fresh (flat_map appended_fragments ts).
Proof. induction ts as [|t r IH]; intros F; [constructor|]. inversion F; subst. cbn [flat_map]. apply Forall_app. split; [apply new_append_inv; assumption|apply IH; assumption]. Qed.
Lemma commit_last : forall h e t l file c, last_entry h = Some e -> settled c (e_man e) -> fresh l -> t_op t = Append l ->
  commit_on h t file c = bbind (app_build c t file (e_man e) l) (fun m' => BOk (m', e_idx e)).
Proof. intros h e t l file c L SE FR OP. rewrite <- commit_append by assumption. unfold commit_on. rewrite L, OP. reflexivity. Qed.
Lemma skipn_snoc_in : forall {A} n (l : list A) x y, In y (skipn n (l ++ [x])) -> In y (skipn n l) \/ y = x.
Proof.
  intros A n l x y I. rewrite skipn_app in I. apply in_app_or in I. destruct I as [I|I]; [left; exact I|]. destruct (n - length l)%nat as [|k]; [destruct I as [<-|[]]; right; reflexivity|]. cbn in I. destruct k; destruct I.
Qed.

(* one by one, from any table *)
Lemma sequence_of : forall ts c h e t file m, ts <> [] -> last_entry h = Some e -> settled c (e_man e) -> Forall new_append ts ->
  (forall v, In v ts -> Forall (fun x => conflicts_with (t_op v) (t_op (e_txn x)) = false) (skipn (N.to_nat (t_read v)) h)) ->
  app_build c t file (e_man e) (flat_map appended_fragments ts) = BOk m ->
  exists es e', one_by_one c h ts (h ++ es) /\ map e_txn es = ts /\ last_entry (h ++ es) = Some e' /\ same_table m (e_man e') /\ e_idx e' = e_idx e.
Proof.
  induction ts as [|v r IH]; intros c h e t file m NE L SE NA CK E; [contradiction|]. inversion NA as [|? ? NV NR]; subst. destruct (new_append_inv v NV) as [OP FV]. cbn [flat_map] in E.
  destruct r as [|w r].
  - cbn [flat_map] in E. rewrite app_nil_r in E. destruct (app_build_any c t file v file _ _ _ E) as [m2 [E2 S2]].
    exists [{| e_txn := v; e_cfg := c; e_man := m2; e_idx := e_idx e |}]. eexists. split; [|split; [reflexivity|split; [apply last_snoc|split; [exact S2|reflexivity]]]].
    eapply ob_cons; [rewrite (commit_last h e v _ file c L SE FV OP), E2; reflexivity|apply CK; left; reflexivity|apply ob_nil].
  - destruct (append_split c t file v file v file (e_man e) (appended_fragments v) (flat_map appended_fragments (w :: r)) SE FV (fresh_flat _ NR) _ eq_refl) as [K _].
    destruct (K m E) as (m1 & m2 & E1 & E2 & S2). pose proof (app_build_settled c v file _ _ _ SE FV E1) as SE1.
    set (e1 := {| e_txn := v; e_cfg := c; e_man := m1; e_idx := e_idx e |}).
    destruct (IH c (h ++ [e1]) e1 v file m2) as (es & e' & O & MP & L' & S' & IX); [discriminate|apply last_snoc|exact SE1|exact NR| |exact E2|].
    + intros u I. rewrite Forall_forall. intros x J. apply skipn_snoc_in in J. assert (NU : new_append u) by (rewrite Forall_forall in NR; apply NR; exact I). destruct (new_append_inv u NU) as [OU _].
      destruct J as [J|J]; [specialize (CK u (or_intror I)); rewrite Forall_forall in CK; apply CK; exact J|]. subst x. cbn [e1 e_txn]. rewrite OP, OU. reflexivity.
    + exists (e1 :: es), e'. rewrite <- app_assoc in O, L'. split; [eapply ob_cons; [rewrite (commit_last h e v _ file c L SE FV OP), E1; reflexivity|apply CK; left; reflexivity|]|].
      * exact O.
      * split; [cbn; rewrite MP; reflexivity|]. split; [exact L'|]. split; [eapply same_table_trans; eassumption|exact IX].
Qed.
Theorem batch_as_sequence : forall ts u t c h e file m ix, merge_batch ts u = BOk t -> last_entry h = Some e -> settled c (e_man e) -> Forall new_append ts ->
  Forall (fun x => conflicts_with (t_op t) (t_op (e_txn x)) = false) (skipn (N.to_nat (t_read t)) h) -> commit_on h t file c = BOk (m, ix) ->
  exists es e', one_by_one c h ts (h ++ es) /\ map e_txn es = ts /\ last_entry (h ++ es) = Some e' /\ same_table m (e_man e') /\ e_idx e' = ix.
Proof.
  intros ts u t c h e file m ix M L SE NA CK E. destruct (merge_inv ts u t M) as (NE & _ & OP & _). rewrite (commit_last h e t _ file c L SE (fresh_flat ts NA) OP) in E. apply bbind_ok in E as [m' [E [= -> <-]]].
  apply (sequence_of ts c h e t file m); auto. intros v I. exact (batch_check_each ts u t h v M I CK).
Qed.
Lemma sequence_one : forall ts c h e h' t file, one_by_one c h ts h' -> ts <> [] -> last_entry h = Some e -> settled c (e_man e) -> Forall new_append ts ->
  exists m e', app_build c t file (e_man e) (flat_map appended_fragments ts) = BOk m /\ last_entry h' = Some e' /\ same_table m (e_man e') /\ e_idx e' = e_idx e.
Proof.
  intros ts c h e h' t file O. revert e t file. induction O as [h|h v r f m ix h' B CK O IH]; intros e t file NE L SE NA; [contradiction|]. inversion NA as [|? ? NV NR]; subst. destruct (new_append_inv v NV) as [OP FV].
  rewrite (commit_last h e v _ f c L SE FV OP) in B. apply bbind_ok in B as [m1 [B [= -> <-]]]. cbn [flat_map]. destruct r as [|w r].
  - inversion O; subst. cbn [flat_map]. rewrite app_nil_r. destruct (app_build_any c v f t file _ _ _ B) as [m2 [E2 S2]]. exists m2. eexists. split; [exact E2|]. split; [apply last_snoc|]. split; [|reflexivity].
    cbn [e_man]. destruct S2 as (A1 & A2 & A3 & A4 & A5 & A6 & A7). repeat split; congruence.
  - pose proof (app_build_settled c v f _ _ _ SE FV B) as SE1. destruct (IH {| e_txn := v; e_cfg := c; e_man := m; e_idx := e_idx e |} v f) as (m2 & e' & E2 & L' & S2 & IX); [discriminate|apply last_snoc|exact SE1|exact NR|].
    destruct (append_split c t file v f v f (e_man e) (appended_fragments v) (flat_map appended_fragments (w :: r)) SE FV (fresh_flat _ NR) _ eq_refl) as [_ K].
    destruct (K m m2 B E2) as [m3 [E3 S3]]. exists m3, e'. split; [exact E3|]. split; [exact L'|]. split; [eapply same_table_trans; eassumption|exact IX].
Qed.
Theorem sequence_as_batch : forall ts u t c h e h' file, merge_batch ts u = BOk t -> last_entry h = Some e -> settled c (e_man e) -> Forall new_append ts -> one_by_one c h ts h' ->
  exists m ix e', commit_on h t file c = BOk (m, ix) /\ last_entry h' = Some e' /\ same_table m (e_man e') /\ e_idx e' = ix.
Proof.
  intros ts u t c h e h' file M L SE NA O. destruct (merge_inv ts u t M) as (NE & _ & OP & _). destruct (sequence_one ts c h e h' t file O NE L SE NA) as (m & e' & E & L' & S & IX).
  exists m, (e_idx e), e'. rewrite (commit_last h e t _ file c L SE (fresh_flat ts NA) OP), E. auto.
Qed.
(* one by one is what histories allow *)
Theorem one_by_one_history : forall c h ts h', one_by_one c h ts h' -> history h -> h <> [] -> (forall v, In v ts -> 1 <= t_read v <= N.of_nat (length h)) -> history h'.
Proof.
  intros c h ts h' O. induction O as [h|h t ts f m ix h' B CK O IH]; intros H NE RD; [exact H|]. apply IH.
  - eapply hist_next; [exact H|right; apply RD; left; reflexivity|exact CK|exact B].
  - destruct h; discriminate.
  - intros v I. specialize (RD v (or_intror I)). rewrite app_length. cbn. lia.
Qed.

(** * Examples *)
From Verif Require Import TxnExamples.
Definition bh : list entry := hist [(created_s, stable); (append_s 1 2 11, stable)].
Definition bts : list txn := [append_s 2 5 20; tx 1 6 (Append [frag 0 21 2 [0%Z]; frag 0 22 3 [0%Z]])].
Definition batch_man : option (N * list N * list (option (list N)) * N) :=
  match merge_batch bts 9 with
  | BOk t => match commit_on bh t 9 stable with BOk (m, _) => Some (t_read t, map f_id (m_fragments m), map f_rowids (m_fragments m), m_next_row m) | _ => None end
  | _ => None end.
Example batch_example : batch_man = Some (1, [0; 1; 2; 3; 4], [Some [0; 1]; Some [2; 3]; Some [4; 5]; Some [6; 7]; Some [8; 9; 10]], 11).
Proof. vm_compute. reflexivity. Qed.
Example batch_hypotheses : exists e, last_entry bh = Some e /\ settled stable (e_man e) /\ Forall new_append bts /\ history bh /\
  (forall t, merge_batch bts 9 = BOk t -> Forall (fun x => conflicts_with (t_op t) (t_op (e_txn x)) = false) (skipn (N.to_nat (t_read t)) bh)).
Proof.
  eexists. split; [vm_compute; reflexivity|]. split; [|split; [|split; [unfold bh; hist_ok|]]].
  - split; [|split; [vm_compute; reflexivity|split; reflexivity]]. split; [vm_compute; repeat split; intros ? []; subst; try reflexivity; contradiction|]. split; [|reflexivity]. intros i I. vm_compute in I. destruct I as [<-|[<-|[]]]; vm_compute; discriminate.
  - repeat constructor; eexists; (split; [reflexivity|]); repeat constructor.
  - intros t [= <-]. vm_compute. repeat constructor.
Qed.
(* the batch is refused where the newer of two appends alone would not be *)
Definition bh2 : list entry := hist [(created_s, dflt); (tx 1 2 (Overwrite [frag 0 30 2 [0%Z]] (sch [0%Z]) None), dflt)].
Example batch_stricter : exists t, merge_batch [append_s 1 5 20; append_s 2 6 21] 9 = BOk t /\
  ~ Forall (fun x => conflicts_with (t_op t) (t_op (e_txn x)) = false) (skipn (N.to_nat (t_read t)) bh2) /\
  Forall (fun x => conflicts_with (t_op (append_s 2 6 21)) (t_op (e_txn x)) = false) (skipn (N.to_nat (t_read (append_s 2 6 21))) bh2).
Proof. eexists. split; [vm_compute; reflexivity|]. split; [intros F; vm_compute in F; inversion F; discriminate|]. vm_compute. constructor. Qed.
