(* C113: instances, and what goes wrong outside the side conditions. *)
From Coq Require Import List Arith NArith ZArith QArith Bool Lia Lqa Permutation Sorted.
From Verif Require Import Lib AMap RowIdsModel RowIdsSpec SerdeModel TreeMapModel TreeMapProofs MaskProofs SeqSetProofs
  DeletionModel TakeModel ScalarModel ScalarProofs BitmapIndexProofs IndexExprModel IndexExprProofs ScanModel ScanProofs ScanIndexProofs ScanExamples ScanCover KnnModel KnnProofs KnnPlan KnnResults.
From Verif Require FtsExamples.
Import ListNotations.
Local Open Scope nat_scope.

(* a sort *)
Definition key_leb (a b : option Q) : bool := match a, b with Some x, Some y => Qle_bool x y | None, Some _ => false | _, None => true end.
Definition sort0 (A : Type) (key : A -> option Q) (l : list A) : list A := FtsExamples.order (fun a b => key_leb (key a) (key b)) l.
Lemma sort0_ok : sorts_keys sort0.
Proof.
  split; [intros A key l; apply FtsExamples.order_perm|]. intros A key l. unfold sort0.
  assert (S : StronglySorted (fun a b => key_leb (key a) (key b) = true) (FtsExamples.order (fun a b => key_leb (key a) (key b)) l)).
  { apply FtsExamples.order_sorted.
    - intros a b. unfold key_leb. destruct (key a) as [x|], (key b) as [y|]; auto. rewrite !Qle_bool_iff. destruct (Qlt_le_dec x y); [left; lra|auto].
    - intros a b c. unfold key_leb. destruct (key a), (key b), (key c); auto; try discriminate. rewrite !Qle_bool_iff. lra. }
  induction S as [|x l0 S IH F]; constructor; auto. eapply Forall_impl; [|exact F]. cbn beta. intros y. unfold key_leb, nulls_last. destruct (key x), (key y); try discriminate; auto. apply Qle_bool_iff.
Qed.
(* column 0 is for filters, column 1 is the vector: two metrics *)
Definition dist0 (m : bool) (r : row) : option Q := match r_col r 1 with Some z => Some (inject_Z (if m then z * z else 100 - z)%Z) | None => None end.
Definition vec (x : Z) (v : value) : row := mk (int x) v None.
Definition flat_parts (n : nat) (l : list (N * Q)) : list (Q * list (N * Q)) := [(inject_Z 1, firstn n l); (inject_Z 0, skipn n l)].
Definition delta_of (m : bool) (fs : list sfrag) : delta :=
  {| dl_bitmap := Some (map s_id fs); dl_parts := flat_parts 2 (map (fun p => (fst (fst p), snd p)) (near dist0 m None None (live false fs))) |}.
Lemma delta_of_built : forall m fs, built dist0 false m fs (delta_of m fs).
Proof. intros m fs. split; [reflexivity|]. unfold dl_entries, delta_of, flat_parts. cbn [dl_parts flat_map snd]. rewrite app_nil_r, firstn_skipn. apply Permutation_refl. Qed.
Definition query0 (k : nat) (refine : option nat) (metric fast : bool) : nquery bool :=
  {| nq_k := k; nq_refine := refine; nq_probes := 2; nq_low := None; nq_up := Some (inject_Z 200); nq_metric := metric; nq_use_index := true; nq_prefilter := true; nq_fast := fast |}.
Definition shown (o : option (list ((N * row) * Q))) : option (list (N * Q)) := omap (map (fun p => (fst (fst p), snd p))) o.

Lemma addr_evolved : forall fs0 ds, sds_ok false fs0 -> sds_ok false ds ->
  (forall g g0, In g ds -> In g0 fs0 -> s_id g = s_id g0 -> fr_rows (s_frag g) = fr_rows (s_frag g0) /\ incl (deleted g0) (deleted g)) -> evolved false fs0 ds.
Proof.
  intros fs0 ds O0 O H. split; [|discriminate]. intros g g0 J J0 E. destruct (H g g0 J J0 E) as [A B]. split; [|split; assumption]. cbn. unfold frag_addrs, s_phys. rewrite E, A. reflexivity.
Qed.
Definition frag_okb (f : sfrag) : bool := (s_id f <? two32)%N && (N.of_nat (s_phys f) <=? two32)%N && forallb (fun k => (k <? N.of_nat (s_phys f))%N) (deleted f).
Lemma addr_tableb : forall ds, forallb frag_okb ds = true -> NoDup (map s_id ds) -> sds_ok false ds.
Proof.
  intros ds H D. apply addr_table; [|exact D]. rewrite forallb_forall in H. intros f J. specialize (H f J). unfold frag_okb in H. rewrite !andb_true_iff, N.ltb_lt, N.leb_le, forallb_forall in H. destruct H as [[A B] C].
  split; [exact A|]. split; [exact B|]. apply Forall_forall. intros k K. apply N.ltb_lt. auto.
Qed.
Ltac addr_ok := apply addr_tableb; [vm_compute; reflexivity|vm_compute; nodupN].
Ltac later_ok := cbn [In] in *; repeat match goal with H : _ \/ _ |- _ => destruct H as [H|H]; [subst|] | H : False |- _ => destruct H end; try (vm_compute; discriminate); intros _; (split; [reflexivity|vm_compute; tauto]).
Ltac evolved_ok := apply addr_evolved; [addr_ok|addr_ok|intros ?g ?g0 ?Jg ?Jg0; later_ok].

(* four fragments: 0 with a row deleted since, 1, and 2 without an index; fragment 3 of the first delta is gone *)
Definition f0 := fr 0 [vec 5 (int 3); vec 7 (int 1); vec 1 (int 0); vec 9 (int 6); vec 3 None] None [].
Definition f0' := fr 0 [vec 5 (int 3); vec 7 (int 1); vec 1 (int 0); vec 9 (int 6); vec 3 None] (Some (DBitmap [1]%N)) [].
Definition f1 := fr 1 [vec 4 (int 5); vec 0 (int 2); vec 8 (int 20)] None [].
Definition f2 := fr 2 [vec 6 (int 4); vec 1 (int 1)] None [].
Definition f3 := fr 3 [vec 5 (int 0); vec 9 (int 0)] None [].
Definition table := [f0'; f1; f2].
Definition deltas0 := [delta_of true [f0; f3]; delta_of true [f1]].
Definition bs0 := [[0; 3]; [1]]%N.
Lemma table_sds : sds_ok false table.
Proof. unfold table. addr_ok. Qed.
Lemma deltas0_exact : exact_index dist0 false table true 2 deltas0 bs0.
Proof.
  change bs0 with (map (map s_id) [[f0; f3]; [f1]]). apply built_exact.
  - exact table_sds.
  - apply Forall_forall. intros fs0 [<-|[<-|[]]]; (split; [addr_ok|unfold table; evolved_ok]).
  - apply Forall2_cons; [apply delta_of_built|]. apply Forall2_cons; [apply delta_of_built|constructor].
  - repeat constructor. intros k [<-|[<-|[]]] [H|[]]; discriminate.
  - intros d [<-|[<-|[]]]; vm_compute; lia.
Qed.
(* a bitmap index of column 0 on some rows *)
Definition ixs_on (trained : list (N * row)) : N -> option cindex := fun c => if (c =? 0)%N then Some (IxBitmap (map (fun p => (r_col (snd p) c, fst p)) trained)) else None.
Definition info0 : info := fun c => if (c =? 0)%N then Some {| ix_parser := PSargable; ix_bool := false; ix_fits := fun _ => true; ix_fits_list := fun _ => true |} else None.
Lemma info0_typed : forall r, typed info0 r.
Proof. intros r c i E B. unfold info0 in E. destruct (c =? 0)%N; [injection E as <-|]; discriminate. Qed.
Lemma ixs_on_trained : forall trained c ix, ixs_on trained c = Some ix -> trained_on trained c ix.
Proof. intros trained c ix E. unfold ixs_on in E. destruct (c =? 0)%N; [|discriminate]. injection E as <-. cbn. apply Permutation_refl. Qed.
Lemma leaves_on : forall trained sub s, NoDup (map fst trained) -> Forall (fun p : N * row => (fst p < two64)%N) trained -> incl sub trained -> queries_ok (ixs_on trained) s -> leaves_ok (index_search (ixs_on trained)) sub s.
Proof. intros trained sub s D L I Q. apply leaves_trained with (trained := fun _ => trained); auto. intros c ix. apply ixs_on_trained. Qed.
Ltac rows_all := let id := fresh in let r := fresh in let J := fresh in intros id r J; vm_compute in J; repeat (destruct J as [J|J]; [injection J as <- <-; split; [apply info0_typed|cbn; intuition discriminate]|]); destruct J.

Lemma live_lt : forall fs, sds_ok false fs -> Forall (fun p : N * row => (fst p < two64)%N) (live false fs).
Proof.
  intros fs O. apply Forall_forall. intros [id r] J. apply live_in_ds in J as [g [Jg J]]. pose proof (proj1 O) as F. rewrite Forall_forall in F. cbn [fst]. eapply ids_lt; [exact (F g Jg)|eapply frag_live_id; eauto].
Qed.
Lemma trained_sds : sds_ok false [f0; f1; f3].
Proof. addr_ok. Qed.
Definition filter0 := cmp 0 OGt 2.
Lemma answered_ok : forall fs e s, scalar_query (apply_scalar_indices info0 e) = Some s -> fs = [f0; f1; f3] ->
  (forall id r, In (id, r) (live false (filter (indexed bs0) table)) -> typed info0 r /\ nullsafe r e) -> shape_of s = Some ShA -> queries_ok (ixs_on (live false fs)) s ->
  answered false table info0 (index_search (ixs_on (live false fs))) bs0 e s.
Proof.
  intros fs e s ES -> TN SH Q. split; [exact TN|]. split; [congruence|]. split; [|left; exact SH]. apply leaves_on; [apply live_fst_nodup; exact trained_sds|apply live_lt; exact trained_sds| |exact Q].
  intros x J. vm_compute in J. vm_compute. tauto.
Qed.
Lemma filter0_ok : filter_ok false table info0 (index_search (ixs_on (live false [f0; f1; f3]))) (fun _ => [0; 1; 3]%N) bs0 (Some filter0).
Proof.
  cbn [filter_ok]. destruct (scalar_query (apply_scalar_indices info0 filter0)) as [s|] eqn:ES; [|vm_compute in ES; discriminate]. destruct (refine_expr (apply_scalar_indices info0 filter0)) as [x|] eqn:ER; [vm_compute in ER; discriminate|].
  apply answered_ok; [exact ES|reflexivity|rows_all|vm_compute in ES; injection ES as <-; reflexivity|vm_compute in ES; injection ES as <-; cbn; intuition discriminate].
Qed.
(* without a filter, with a filter that a scalar index answers, with refinement, without the new fragment *)
Example indexed_query_instance :
  let run e q := knn dist0 sort0 false table 3 None info0 (index_search (ixs_on (live false [f0; f1; f3]))) (fun _ => [0; 1; 3]%N) e q (Some (true, deltas0)) in
  shown (run None (query0 3 None true false)) = Some [(2, inject_Z 0); (8589934593, inject_Z 1); (4294967297, inject_Z 4)]%N /\
  shown (run (Some filter0) (query0 3 None true false)) = Some [(0, inject_Z 9); (8589934592, inject_Z 16); (4294967296, inject_Z 25)]%N /\
  shown (run (Some filter0) (query0 3 (Some 2) true true)) = Some [(0, inject_Z 9); (4294967296, inject_Z 25); (3, inject_Z 36)]%N /\
  (forall k refine metric fast, refine <> Some 0 -> exists res, run (Some filter0) (query0 k refine metric fast) = Some res /\
    nearest snd k (near dist0 true None (Some (inject_Z 200)) (filter (passing (Some filter0)) (live false (if fast then filter (indexed bs0) table else table)))) res).
Proof.
  intros run. split; [vm_compute; reflexivity|]. split; [vm_compute; reflexivity|]. split; [vm_compute; reflexivity|]. intros k refine metric fast R.
  exact (indexed_query_exact dist0 sort0 sort0_ok false table 3 info0 _ _ (Some filter0) (query0 k refine metric fast) true deltas0 bs0 table_sds deltas0_exact filter0_ok eq_refl R).
Qed.
(* the same index with approximate distances and one probe *)
Definition rough (d : delta) : delta := {| dl_bitmap := dl_bitmap d; dl_parts := map (fun p => (fst p, map (fun x => (fst x, (snd x + inject_Z 1)%Q)) (snd p))) (dl_parts d) |}.
Definition query1 := {| nq_k := 2; nq_refine := Some 2; nq_probes := 1; nq_low := None; nq_up := Some (inject_Z 200); nq_metric := true; nq_use_index := true; nq_prefilter := true; nq_fast := false |}.
Lemma rough_ok : forall d b, delta_ok false table d b -> delta_ok false table (rough d) b.
Proof.
  intros d b H. assert (E : dl_entries (rough d) = map (fun x => (fst x, (snd x + inject_Z 1)%Q)) (dl_entries d)).
  { unfold dl_entries, rough. cbn [dl_parts]. induction (dl_parts d) as [|p l IH]; [reflexivity|]. cbn [map flat_map snd]. rewrite map_app, IH. reflexivity. }
  assert (J0 : forall id x, In (id, x) (dl_entries (rough d)) -> exists y, In (id, y) (dl_entries d)) by (intros id x J; rewrite E in J; apply in_map_iff in J as [[i y] [A B]]; injection A as -> _; exists y; exact B).
  constructor.
  - exact (do_bitmap _ _ _ _ H).
  - exact (do_u32 _ _ _ _ H).
  - rewrite E, map_map. exact (do_nodup _ _ _ _ H).
  - intros id x J. destruct (J0 id x J) as [y Y]. exact (do_lt _ _ _ _ H id y Y).
  - intros id x J. destruct (J0 id x J) as [y Y]. exact (do_ids _ _ _ _ H id y Y).
  - intros g id r x Jg L J. destruct (J0 id x J) as [y Y]. exact (do_only _ _ _ _ H g id r y Jg L Y).
Qed.
Example approximate_query_instance :
  let run := knn dist0 sort0 false table 3 None info0 (index_search (ixs_on (live false [f0; f1; f3]))) (fun _ => [0; 1; 3]%N) (Some filter0) query1 (Some (true, map rough deltas0)) in
  shown run = Some [(8589934592, inject_Z 16); (3, inject_Z 36)]%N /\
  exists found A res, found_rows false table (Some filter0) query1 (map rough deltas0) bs0 found A /\ run = Some res /\
    nearest snd 2 (near dist0 true None (Some (inject_Z 200)) (A ++ filter (passing (Some filter0)) (live false (filter (fun g => negb (indexed bs0 g)) table)))) res.
Proof.
  intros run. split; [vm_compute; reflexivity|].
  assert (R : nq_refine query1 <> Some 0) by discriminate.
  assert (DO : Forall2 (delta_ok false table) (map rough deltas0) bs0) by (pose proof (proj1 deltas0_exact) as H; inversion H as [|? ? ? ? H1 H2]; subst; inversion H2 as [|? ? ? ? H3 H4]; subst; apply Forall2_cons; [apply rough_ok; exact H1|apply Forall2_cons; [apply rough_ok; exact H3|constructor]]).
  destruct (indexed_query_sound dist0 sort0 sort0_ok false table 3 info0 _ _ (Some filter0) query1 true (map rough deltas0) bs0 table_sds DO (proj1 (proj2 deltas0_exact)) filter0_ok eq_refl R) as [found [A [res [FR [E H]]]]].
  exists found, A, res. split; [exact FR|]. split; [exact E|]. exact H.
Qed.

(* ---- what is not so ---- *)
Lemma not_nearest : forall {A} (key : A -> Q) k C res x, In x C -> ~ In x res -> length res < k -> ~ nearest key k C res.
Proof.
  intros A key k C res x J NI L [rest [P [E _]]]. eapply Permutation_in in J; [|exact P]. apply in_app_or in J as [J|J]; [contradiction|]. apply Permutation_length in P. rewrite app_length in P. destruct rest; [destruct J|]. cbn in P. lia.
Qed.
Lemma scan_ok_on : forall ds fs e s, sds_ok false ds -> sds_ok false fs -> scalar_query (apply_scalar_indices info0 e) = Some s -> shape_of s <> None -> queries_ok (ixs_on (live false fs)) s ->
  (forall id r, In (id, r) (live false ds) -> typed info0 r /\ nullsafe r e) -> incl (live false (filter (fun g => existsb (N.eqb (s_id g)) (map s_id fs)) ds)) (live false fs) ->
  Forall (fun p : N * row => (fst p < two64)%N) (live false fs) -> columns s <> [] ->
  (forall id r, In (id, r) (live false fs) -> In (fragment_id id) (map s_id (filter (all_cover (fun _ => map s_id fs) s) ds)) -> In id (flat_map (frag_ids false) (filter (all_cover (fun _ => map s_id fs) s) ds))) ->
  to_expr s <> None -> (forall r, boolsafe r e) ->
  scan_ok false ds info0 (index_search (ixs_on (live false fs))) (fun _ => map s_id fs) e.
Proof.
  intros ds fs e s O OF ES SH Q TN IN LT NC WI TX BS. split; [exact TN|]. intros s' E. rewrite ES in E. injection E as <-. cbv zeta. split; [exact SH|].
  assert (D : NoDup (map fst (live false fs))) by (apply live_fst_nodup; exact OF).
  split; [|split].
  - apply leaves_on; auto. eapply incl_tran; [|exact IN]. apply live_mono. intros g J. apply filter_In in J as [J C]. apply filter_In. split; [exact J|]. destruct (columns s) as [|c l] eqn:EC; [congruence|]. apply (all_one (fun _ => map s_id fs) s c); [rewrite EC; left; reflexivity|exact C].
  - unfold leaves_within. apply leaves_in_trained with (trained := fun _ => live false fs); auto; [intros c ix; apply ixs_on_trained|]. intros c id r _ J. eapply WI. exact J.
  - intros g _ _. split; [exact TX|]. intros id r _. apply BS.
Qed.
(* the scalar index knows fragment 0 only: a scan with the filter is exact, the search misses rows of fragment 1 ... *)
Definition table2 := [f0; f1].
Definition deltas2 := [delta_of true [f0; f1]].
Lemma table2_sds : sds_ok false table2.
Proof. unfold table2. addr_ok. Qed.
Lemma deltas2_exact : exact_index dist0 false table2 true 2 deltas2 [[0; 1]%N].
Proof.
  change [[0; 1]%N] with (map (map s_id) [[f0; f1]]). apply built_exact.
  - exact table2_sds.
  - apply Forall_forall. intros fs0 [<-|[]]. split; [addr_ok|unfold table2; evolved_ok].
  - apply Forall2_cons; [apply delta_of_built|constructor].
  - repeat constructor.
  - intros d [<-|[]]; vm_compute; lia.
Qed.
Lemma stale_scalar_ok : forall e s, scalar_query (apply_scalar_indices info0 e) = Some s -> shape_of s <> None -> queries_ok (ixs_on (live false [f0])) s -> columns s = [0%N] -> to_expr s <> None -> (forall r, boolsafe r e) ->
  (forall id r, In (id, r) (live false table2) -> typed info0 r /\ nullsafe r e) -> scan_ok false table2 info0 (index_search (ixs_on (live false [f0]))) (fun _ => [0%N]) e.
Proof.
  intros e s ES SH Q CO TX BS TN. change (fun _ : N => [0%N]) with (fun _ : N => map s_id [f0]). apply scan_ok_on with (s := s); auto.
  - exact table2_sds.
  - addr_ok.
  - intros x J. vm_compute in J. vm_compute. tauto.
  - apply live_lt. addr_ok.
  - rewrite CO. discriminate.
  - unfold all_cover. rewrite CO. intros id r J F. vm_compute in J. repeat (destruct J as [J|J]; [injection J as <- <-; vm_compute in F |- *; tauto|]). destruct J.
Qed.
Theorem scalar_index_behind_misses_refuted : exists (ds : list sfrag) f search bitmap e q deltas bs res,
  sds_ok false ds /\ exact_index dist0 false ds true (nq_probes q) deltas bs /\ scan_ok false ds f search bitmap e /\ nq_refine q = None /\ nq_prefilter q = true /\
  nearest_scan dist0 sort0 false ds 3 None f search bitmap (Some e) q (Some (true, deltas)) = Some res /\
  ~ nearest snd (nq_k q) (near dist0 true (nq_low q) (nq_up q) (filter (passing (Some e)) (live false ds))) res.
Proof.
  exists table2, info0, (index_search (ixs_on (live false [f0]))), (fun _ => [0%N]), filter0, (query0 5 None true false), deltas2, [[0; 1]%N].
  destruct (nearest_scan dist0 sort0 false table2 3 None info0 (index_search (ixs_on (live false [f0]))) (fun _ => [0%N]) (Some filter0) (query0 5 None true false) (Some (true, deltas2))) as [res|] eqn:E; [|vm_compute in E; discriminate].
  exists res. split; [exact table2_sds|]. split; [exact deltas2_exact|]. split.
  { destruct (scalar_query (apply_scalar_indices info0 filter0)) as [s|] eqn:ES; [|vm_compute in ES; discriminate]. pose proof ES as ES'. vm_compute in ES'. injection ES' as <-.
    eapply stale_scalar_ok; [exact ES|discriminate|cbn; intuition discriminate|reflexivity|discriminate|cbn; tauto|rows_all]. }
  split; [reflexivity|]. split; [reflexivity|]. split; [reflexivity|]. vm_compute in E. injection E as <-. apply not_nearest with (x := ((4294967296%N, vec 4 (int 5)), inject_Z 25)).
  - vm_compute. tauto.
  - cbn. intuition discriminate.
  - vm_compute. lia.
Qed.
(* ... and with a negation returns rows of fragment 1 that do not pass *)
Theorem scalar_index_behind_wrong_refuted : exists (ds : list sfrag) f search bitmap e q deltas bs res p,
  sds_ok false ds /\ exact_index dist0 false ds true (nq_probes q) deltas bs /\ scan_ok false ds f search bitmap e /\ nq_refine q = None /\ nq_prefilter q = true /\
  nearest_scan dist0 sort0 false ds 3 None f search bitmap (Some e) q (Some (true, deltas)) = Some res /\ In p res /\ passing (Some e) (fst p) = false.
Proof.
  set (e := ENot (cmp 0 OEq 4)).
  exists table2, info0, (index_search (ixs_on (live false [f0]))), (fun _ => [0%N]), e, (query0 5 None true false), deltas2, [[0; 1]%N].
  destruct (nearest_scan dist0 sort0 false table2 3 None info0 (index_search (ixs_on (live false [f0]))) (fun _ => [0%N]) (Some e) (query0 5 None true false) (Some (true, deltas2))) as [res|] eqn:E; [|vm_compute in E; discriminate].
  exists res, ((4294967296%N, vec 4 (int 5)), inject_Z 25). split; [exact table2_sds|]. split; [exact deltas2_exact|]. split.
  { destruct (scalar_query (apply_scalar_indices info0 e)) as [s|] eqn:ES; [|vm_compute in ES; discriminate]. pose proof ES as ES'. vm_compute in ES'. injection ES' as <-.
    eapply stale_scalar_ok; [exact ES|discriminate|cbn; intuition discriminate|reflexivity|discriminate|cbn; tauto|rows_all]. }
  split; [reflexivity|]. split; [reflexivity|]. split; [reflexivity|]. vm_compute in E. injection E as <-. split; [vm_compute; tauto|reflexivity].
Qed.
(* a search of some fragments returns rows of others *)
Theorem fragment_search_refuted : exists (ds requested : list sfrag) q deltas bs res p,
  sds_ok false ds /\ incl requested ds /\ exact_index dist0 false ds true (nq_probes q) deltas bs /\ nq_refine q = None /\ nq_prefilter q = true /\
  nearest_scan dist0 sort0 false ds 3 (Some requested) info0 (fun _ _ => None) (fun _ => []) None q (Some (true, deltas)) = Some res /\ In p res /\ ~ In (fst p) (live false requested).
Proof.
  exists table2, [f0], (query0 5 None true false), deltas2, [[0; 1]%N].
  destruct (nearest_scan dist0 sort0 false table2 3 (Some [f0]) info0 (fun _ _ => None) (fun _ => []) None (query0 5 None true false) (Some (true, deltas2))) as [res|] eqn:E; [|vm_compute in E; discriminate].
  exists res, ((4294967296%N, vec 4 (int 5)), inject_Z 25). split; [exact table2_sds|]. split; [intros g [<-|[]]; left; reflexivity|]. split; [exact deltas2_exact|]. split; [reflexivity|]. split; [reflexivity|]. split; [reflexivity|].
  vm_compute in E. injection E as <-. split; [vm_compute; tauto|]. cbn [fst]. intros J. vm_compute in J. intuition discriminate.
Qed.
(* the metric of the query is not the one used *)
Theorem query_metric_refuted : exists (ds : list sfrag) q deltas bs res,
  sds_ok false ds /\ exact_index dist0 false ds true (nq_probes q) deltas bs /\ nq_refine q = Some 2 /\ nq_prefilter q = true /\ nq_metric q = false /\
  nearest_scan dist0 sort0 false ds 3 None info0 (fun _ _ => None) (fun _ => []) None q (Some (true, deltas)) = Some res /\
  ~ nearest snd (nq_k q) (near dist0 (nq_metric q) (nq_low q) (nq_up q) (live false ds)) res.
Proof.
  exists table2, (query0 1 (Some 2) false false), deltas2, [[0; 1]%N].
  destruct (nearest_scan dist0 sort0 false table2 3 None info0 (fun _ _ => None) (fun _ => []) None (query0 1 (Some 2) false false) (Some (true, deltas2))) as [res|] eqn:E; [|vm_compute in E; discriminate].
  exists res. split; [exact table2_sds|]. split; [exact deltas2_exact|]. split; [reflexivity|]. split; [reflexivity|]. split; [reflexivity|]. split; [reflexivity|].
  vm_compute in E. injection E as <-. intros H. apply nearest_incl in H. specialize (H _ (or_introl eq_refl)). vm_compute in H. intuition discriminate.
Qed.
(* a fragment of the index is gone: with a negated filter its rows are found and the query fails *)
Theorem gone_fragment_refuted : exists (ds : list sfrag) f search bitmap e s q deltas bs,
  sds_ok false ds /\ exact_index dist0 false ds true (nq_probes q) deltas bs /\ nq_refine q = None /\ nq_prefilter q = true /\
  scalar_query (apply_scalar_indices f e) = Some s /\ refine_expr (apply_scalar_indices f e) = None /\
  (forall id r, In (id, r) (live false ds) -> typed f r /\ nullsafe r e) /\ shape_of s <> None /\ leaves_ok search (live false (filter (indexed bs) ds)) s /\
  filter (passing (Some e)) (live false ds) <> [] /\
  nearest_scan dist0 sort0 false ds 3 None f search bitmap (Some e) q (Some (true, deltas)) = None.
Proof.
  set (e := ENot (cmp 0 OEq 5)). destruct (scalar_query (apply_scalar_indices info0 e)) as [s|] eqn:ES; [|vm_compute in ES; discriminate].
  exists table, info0, (index_search (ixs_on (live false [f0; f1; f3]))), (fun _ => [0; 1; 3]%N), e, s, (query0 5 None true false), deltas0, bs0.
  pose proof ES as ES'. vm_compute in ES'. injection ES' as <-. split; [exact table_sds|]. split; [exact deltas0_exact|]. split; [reflexivity|]. split; [reflexivity|]. split; [exact ES|]. split; [reflexivity|]. split; [rows_all|]. split; [discriminate|]. split.
  { apply leaves_on; [apply live_fst_nodup; exact trained_sds|apply live_lt; exact trained_sds| |cbn; intuition discriminate]. intros x J. vm_compute in J. vm_compute. tauto. }
  split; [vm_compute; discriminate|]. vm_compute. reflexivity.
Qed.
(* no index: some fragments, a filter, bounds *)
Example flat_query_instance :
  let q := {| nq_k := 3; nq_refine := None; nq_probes := 1; nq_low := Some (inject_Z 1); nq_up := Some (inject_Z 30); nq_metric := true; nq_use_index := false; nq_prefilter := true; nq_fast := false |} in
  let run := knn dist0 sort0 false table 3 (Some [f0'; f1]) info0 (index_search (ixs_on (live false [f0]))) (fun _ => [0%N]) (Some filter0) q None in
  shown run = Some [(0, inject_Z 9); (4294967296, inject_Z 25)]%N /\
  exists res, run = Some res /\ nearest snd 3 (near dist0 true (Some (inject_Z 1)) (Some (inject_Z 30)) (filter (passing (Some filter0)) (live false [f0'; f1]))) res.
Proof.
  intros q run. split; [vm_compute; reflexivity|]. apply (flat_query_exact dist0 sort0 sort0_ok false table 3 (Some [f0'; f1]) info0 _ _ (Some filter0) q None table_sds).
  - intros g [<-|[<-|[]]]; [left|right; left]; reflexivity.
  - vm_compute. nodupN.
  - left. reflexivity.
  - intros e' E. injection E as <-. destruct (scalar_query (apply_scalar_indices info0 filter0)) as [s|] eqn:ES; [|vm_compute in ES; discriminate]. pose proof ES as ES'. vm_compute in ES'. injection ES' as <-.
    change (fun _ : N => [0%N]) with (fun _ : N => map s_id [f0]). eapply scan_ok_on; [addr_ok|addr_ok|exact ES|discriminate|cbn; intuition discriminate|rows_all| |apply live_lt; addr_ok|discriminate| |discriminate|cbn; tauto].
    + intros x J. vm_compute in J. vm_compute. tauto.
    + intros id r J F. vm_compute in J. repeat (destruct J as [J|J]; [injection J as <- <-; vm_compute in F |- *; tauto|]). destruct J.
Qed.
Example postfiltered_query_instance :
  let q := {| nq_k := 3; nq_refine := None; nq_probes := 2; nq_low := None; nq_up := None; nq_metric := true; nq_use_index := true; nq_prefilter := false; nq_fast := false |} in
  shown (nearest_scan dist0 sort0 false table 3 None info0 (fun _ _ => None) (fun _ => []) (Some (cmp 0 OLt 1)) q (Some (true, deltas0))) = Some [(4294967297, inject_Z 4)]%N /\
  exists all, nearest snd 3 (near dist0 true None None (live false table)) all /\
    nearest_scan dist0 sort0 false table 3 None info0 (fun _ _ => None) (fun _ => []) (Some (cmp 0 OLt 1)) q (Some (true, deltas0)) = Some (filter (fun p => passing (Some (cmp 0 OLt 1)) (fst p)) all).
Proof.
  intros q. split; [vm_compute; reflexivity|].
  apply (postfiltered_query_exact dist0 sort0 sort0_ok false table 3 info0 (fun _ _ => None) (fun _ => []) (Some (cmp 0 OLt 1)) q true deltas0 bs0 table_sds deltas0_exact); [reflexivity|reflexivity|discriminate].
Qed.
