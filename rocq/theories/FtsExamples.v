(* Full-text search on examples, and what it does not do. *)
From Coq Require Import List Arith NArith ZArith QArith Bool Lia Lqa Permutation Sorted.
From Verif Require Import Lib FtsModel FtsProofs FtsPhrase FtsIndex FtsIndexProofs FtsSearch FtsPlan.
Import ListNotations.
Local Open Scope nat_scope.

(* ---- a sort, a heap and a ranking that meet the hypotheses ---- *)
Section Sorting.
  Context {A : Type} (le : A -> A -> bool).
  Hypothesis le_total : forall a b, le a b = true \/ le b a = true.
  Hypothesis le_trans : forall a b c, le a b = true -> le b c = true -> le a c = true.
  Fixpoint put (x : A) (l : list A) : list A := match l with [] => [x] | y :: l' => if le x y then x :: l else y :: put x l' end.
  Definition order (l : list A) : list A := fold_right put [] l.
  Lemma put_perm : forall x l, Permutation (put x l) (x :: l).
  Proof. induction l; simpl; [apply Permutation_refl|]. destruct (le x a); [apply Permutation_refl|]. rewrite IHl. apply perm_swap. Qed.
  Lemma order_perm : forall l, Permutation (order l) l.
  Proof. induction l; simpl; [apply Permutation_refl|]. rewrite put_perm, IHl. apply Permutation_refl. Qed.
  Lemma put_sorted : forall x l, StronglySorted (fun a b => le a b = true) l -> StronglySorted (fun a b => le a b = true) (put x l).
  Proof.
    induction l as [|y l IH]; simpl; intros S; [repeat constructor|]. pose proof (StronglySorted_inv S) as [S' F]. destruct (le x y) eqn:E.
    - constructor; auto. constructor; auto. eapply Forall_impl; [|exact F]. intros z Z. eauto.
    - constructor; auto. apply Forall_forall. intros z I. apply (Permutation_in _ (put_perm x l)) in I. rewrite Forall_forall in F.
      destruct I as [<-|I]; [|auto]. destruct (le_total x y); [congruence | auto].
  Qed.
  Lemma order_sorted : forall l, StronglySorted (fun a b => le a b = true) (order l).
  Proof. induction l; simpl; [constructor | apply put_sorted; auto]. Qed.
End Sorting.

Lemma it_leb_total : forall a b, it_leb a b = true \/ it_leb b a = true.
Proof. intros. unfold it_leb. destruct (it_row a), (it_row b); auto. rewrite !N.leb_le. lia. Qed.
Lemma it_leb_trans : forall a b c, it_leb a b = true -> it_leb b c = true -> it_leb a c = true.
Proof. intros a b c. unfold it_leb. destruct (it_row a), (it_row b), (it_row c); auto; try discriminate. rewrite !N.leb_le. lia. Qed.
Definition sort_iters : list piter -> list piter := order it_leb.
Lemma sort_iters_perm : forall l, Permutation (sort_iters l) l.
Proof. apply order_perm. Qed.
Lemma sort_iters_sorted : forall l, StronglySorted (fun a b => it_leb a b = true) (sort_iters l).
Proof. apply order_sorted; [apply it_leb_total | apply it_leb_trans]. Qed.

Definition score_leb (a b : N * Q) : bool := Qle_bool (snd a) (snd b).
Definition score_geb (a b : N * Q) : bool := Qle_bool (snd b) (snd a).
Lemma score_geb_total : forall a b, score_geb a b = true \/ score_geb b a = true.
Proof. intros. unfold score_geb. rewrite !Qle_bool_iff. destruct (Qlt_le_dec (snd a) (snd b)); [right; lra | auto]. Qed.
Lemma score_geb_trans : forall a b c, score_geb a b = true -> score_geb b c = true -> score_geb a c = true.
Proof. intros a b c. unfold score_geb. rewrite !Qle_bool_iff. lra. Qed.
Definition sort_scores : list (N * Q) -> list (N * Q) := order score_geb.
Lemma sort_scores_perm : forall l, Permutation (sort_scores l) l.
Proof. apply order_perm. Qed.
Lemma sort_scores_sorted : forall l, StronglySorted (fun a b => (snd b <= snd a)%Q) (sort_scores l).
Proof.
  intros l. pose proof (order_sorted score_geb score_geb_total score_geb_trans l) as S. unfold sort_scores. induction S; constructor; auto.
  eapply Forall_impl; [|exact H]. intros b B. apply Qle_bool_iff in B. auto.
Qed.
Definition pop_least (l : list (N * Q)) : list (N * Q) := tl (order score_leb l).
Lemma pop_least_ok : forall l, l <> [] -> exists x, Permutation l (x :: pop_least l) /\ forall y, In y l -> (snd x <= snd y)%Q.
Proof.
  intros l NE. unfold pop_least.
  assert (T1 : forall a b, score_leb a b = true \/ score_leb b a = true) by (intros a b; unfold score_leb; rewrite !Qle_bool_iff; destruct (Qlt_le_dec (snd a) (snd b)); [left; lra | auto]).
  assert (T2 : forall a b c, score_leb a b = true -> score_leb b c = true -> score_leb a c = true) by (intros a b c; unfold score_leb; rewrite !Qle_bool_iff; lra).
  pose proof (order_sorted score_leb T1 T2 l) as S. pose proof (order_perm score_leb l) as P. destruct (order score_leb l) as [|x s] eqn:E.
  - apply Permutation_nil in P. congruence.
  - exists x. split; [apply Permutation_sym; exact P|]. intros y I. apply (Permutation_in _ (Permutation_sym P)) in I. apply StronglySorted_inv in S. destruct S as [_ F].
    rewrite Forall_forall in F. destruct I as [<-|I]; [lra|]. specialize (F y I). apply Qle_bool_iff in F. auto.
Qed.

(* a weight that falls with the number of rows that hold the token *)
Definition weight0 (a b : nat) : Q := qnat (S (b - a)).
Lemma weight0_pos : forall a b, a <= b -> (0 < weight0 a b)%Q.
Proof. intros. unfold weight0. apply qnat_pos. lia. Qed.
Lemma weight0_ok : forall a b, a <= b -> (0 <= weight0 a b)%Q.
Proof. intros. apply Qlt_le_weak. apply weight0_pos. auto. Qed.

Definition search0 := ix_search weight0 sort_iters pop_least.
Definition fts0 := fts weight0 sort_iters pop_least sort_scores.
Definition scan0 := scan_fts weight0 sort_iters pop_least sort_scores.
Definition update0 := ix_update weight0.
Definition remap0 := ix_remap weight0.

(* checks of the hypotheses by computation *)
Fixpoint ascending (l : list Z) : bool := match l with [] => true | x :: l => forallb (Z.ltb x) l && ascending l end.
Lemma ascending_ok : forall l, ascending l = true -> StronglySorted Z.lt l.
Proof.
  induction l as [|x l IH]; simpl; intros H; [constructor|]. apply andb_true_iff in H. destruct H as [A B]. constructor; auto. apply Forall_forall. intros y I.
  rewrite forallb_forall in A. apply Z.ltb_lt. auto.
Qed.
Definition doc_okb (d : doc) : bool := ascending (map snd (dc_toks d)).
Lemma doc_okb_ok : forall d, doc_okb d = true -> doc_ok d.
Proof.
  intros d H t. apply ascending_ok in H. unfold positions_of. induction (dc_toks d) as [|[x z] l IH]; simpl in *; [constructor|].
  apply StronglySorted_inv in H. destruct H as [S F]. destruct (x =? t); simpl; auto. constructor; auto. apply Forall_forall. intros y I. rewrite Forall_forall in F. apply F.
  apply in_map_iff in I. destruct I as [e [<- I]]. apply filter_In in I. apply in_map. tauto.
Qed.
Fixpoint distinct (l : list N) : bool := match l with [] => true | x :: l => negb (existsb (N.eqb x) l) && distinct l end.
Lemma distinct_ok : forall l, distinct l = true -> NoDup l.
Proof.
  induction l as [|x l IH]; simpl; intros H; [constructor|]. apply andb_true_iff in H. destruct H as [A B]. constructor; auto. intro I.
  assert (X : existsb (N.eqb x) l = true) by (apply existsb_exists; exists x; split; [auto | apply N.eqb_refl]). rewrite X in A. discriminate.
Qed.
Lemma update0_ok : forall ix D new, represents weight0 ix D -> distinct (map dc_row (new ++ D)) && forallb doc_okb new = true -> represents weight0 (update0 ix new) (new ++ D).
Proof.
  intros ix D new R H. apply andb_true_iff in H. destruct H as [A B]. apply (update_represents weight0 weight0_ok); auto; [apply distinct_ok; auto|].
  apply Forall_forall. intros d I. rewrite forallb_forall in B. apply doc_okb_ok. auto.
Qed.
Lemma build0_built : forall D, distinct (map dc_row D) && forallb doc_okb D = true -> built weight0 (update0 ix_empty D) D.
Proof.
  intros D H. apply andb_true_iff in H. destruct H as [A B]. rewrite <- (app_nil_r D) at 2. apply built_update; [constructor | rewrite app_nil_r; apply distinct_ok; auto|].
  apply Forall_forall. intros d I. rewrite forallb_forall in B. apply doc_okb_ok. auto.
Qed.
Lemma build0_ok : forall D, distinct (map dc_row D) && forallb doc_okb D = true -> represents weight0 (update0 ix_empty D) D.
Proof. intros D H. rewrite <- (app_nil_r D) at 2. apply update0_ok; [apply empty_represents | rewrite app_nil_r; auto]. Qed.

(* ---- an index of four rows: 1 = cat, 2 = dog, 3 = bird ---- *)
Definition row (r : N) (toks : list token) : doc := {| dc_row := r; dc_toks := combine toks (map Z.of_nat (seq 0 (length toks))) |}.
Definition docs4 : list doc := [row 4 [1; 2]; row 5 [2; 1; 2; 3]; row 7 [3]; row 8 [2; 2]].
Definition index4 := update0 (update0 ix_empty [row 5 [2; 1; 2; 3]; row 7 [3]]) [row 4 [1; 2]; row 8 [2; 2]].
Definition docs4' : list doc := [row 4 [1; 2]; row 8 [2; 2]; row 5 [2; 1; 2; 3]; row 7 [3]].
Example index4_ok : represents weight0 index4 docs4'.
Proof.
  apply (update0_ok _ [row 5 [2; 1; 2; 3]; row 7 [3]] [row 4 [1; 2]; row 8 [2; 2]]); [|vm_compute; reflexivity]. apply build0_ok. vm_compute. reflexivity.
Qed.
(* row 4 is deleted and row 5 becomes row 9 *)
Example index4_remap : represents weight0 (remap0 [(4%N, None); (5%N, Some 9%N)] index4) [row 8 [2; 2]; row 9 [2; 1; 2; 3]; row 7 [3]].
Proof.
  apply (remap_represents weight0 weight0_ok _ docs4' [(4%N, None); (5%N, Some 9%N)] index4_ok).
  split; [repeat constructor; simpl; intuition discriminate|]. split; [repeat constructor; simpl; tauto|]. intros y [<-|[]]. simpl. split; intuition discriminate.
Qed.
Example index4_built : built weight0 index4 docs4'.
Proof.
  apply (built_update weight0 (update0 ix_empty [row 5 [2; 1; 2; 3]; row 7 [3]]) [row 5 [2; 1; 2; 3]; row 7 [3]] [row 4 [1; 2]; row 8 [2; 2]]).
  - apply (built_update weight0 ix_empty [] [row 5 [2; 1; 2; 3]; row 7 [3]]); [constructor | apply distinct_ok; vm_compute; reflexivity|].
    repeat apply Forall_cons; try apply Forall_nil; apply doc_okb_ok; vm_compute; reflexivity.
  - apply distinct_ok. vm_compute. reflexivity.
  - repeat apply Forall_cons; try apply Forall_nil; apply doc_okb_ok; vm_compute; reflexivity.
Qed.
Example index4_remapped : built weight0 (remap0 [(4%N, None); (5%N, Some 9%N)] index4) [row 8 [2; 2]; row 9 [2; 1; 2; 3]; row 7 [3]].
Proof.
  apply (built_remap weight0 index4 docs4' [(4%N, None); (5%N, Some 9%N)] index4_built).
  split; [repeat constructor; simpl; intuition discriminate|]. split; [repeat constructor; simpl; tauto|]. intros y [<-|[]]. simpl. split; intuition discriminate.
Qed.
Definition rows_of (o : option (list (N * Q))) : option (list N) := omap (map fst) o.
Example phrase4 : rows_of (search0 index4 (fun _ => true) true 4 [1; 2]) = Some [5%N; 4%N] /\ rows_of (search0 index4 (fun _ => true) true 4 [2; 1]) = Some [5%N].
Proof. vm_compute. split; reflexivity. Qed.
Example phrase4_live : forall t, In t [1; 2] -> find_list t (ix_lists index4) <> None -> exists d, In d docs4' /\ (fun _ : N => true) (dc_row d) = true /\ occurs t d <> 0.
Proof.
  intros t I _. exists (row 4 [1; 2]). split; [left; auto|]. split; auto. destruct I as [<-|[<-|[]]]; vm_compute; discriminate.
Qed.

(* ---- phrases ---- *)
(* a token whose rows are all filtered out is dropped from the phrase *)
Theorem phrase_filtered_refuted : ~ forall ix D sel limit q res, built weight0 ix D -> search0 ix sel true limit q = Some res ->
  forall r s, In (r, s) res -> has_phrase D q r.
Proof.
  intro H. set (D := [row 0 [1]; row 1 [2]]). assert (R : built weight0 (update0 ix_empty D) D) by (apply build0_built; vm_compute; reflexivity).
  destruct (search0 (update0 ix_empty D) (fun r => N.eqb r 0) true 10 [1; 2]) as [res|] eqn:E; [|vm_compute in E; discriminate].
  destruct res as [|[r s] res]; [vm_compute in E; discriminate|]. pose proof (H _ _ _ _ _ _ R E r s (or_introl eq_refl)) as [d [p [I [RD F]]]].
  assert (r = 0%N) by (vm_compute in E; congruence). subst r. clear E.
  destruct I as [<-|[<-|[]]]; [|vm_compute in H0; discriminate]. specialize (F 1 2 eq_refl). destruct F as [F|[]]. injection F as F _. discriminate.
Qed.
(* a text that lost a word to the tokenizer (a stop word, a long word) between two others does not hold itself as a phrase *)
Theorem phrase_gap_refuted : ~ forall ix D d limit, built weight0 ix D -> In d D -> dc_toks d <> [] -> 0 < limit ->
  exists res, search0 ix (fun _ => true) true limit (map fst (dc_toks d)) = Some res /\ res <> [].
Proof.
  intro H. set (d := {| dc_row := 0; dc_toks := [(1, 0%Z); (2, 2%Z)] |}). assert (R : built weight0 (update0 ix_empty [d]) [d]) by (apply build0_built; vm_compute; reflexivity).
  destruct (H _ _ d 10 R (or_introl eq_refl) ltac:(discriminate) ltac:(lia)) as [res [E NE]]. apply NE. vm_compute in E. congruence.
Qed.
(* with the tokens one after another it does *)
Theorem phrase_of_text : forall ix D d, built weight0 ix D -> In d D -> dc_toks d <> [] ->
  (forall k t z, nth_error (dc_toks d) k = Some (t, z) -> z = Z.of_nat k) ->
  exists res, search0 ix (fun _ => true) true (length D) (map fst (dc_toks d)) = Some res /\ In (dc_row d) (map fst res).
Proof.
  intros ix D d R I NE CONS.
  assert (TOK : forall t, In t (map fst (dc_toks d)) -> occurs t d <> 0).
  { intros t J. apply in_map_iff in J. destruct J as [[x z] [E J]]. simpl in E. subst x. apply (occurs_in t d). exists z. auto. }
  destruct (index_phrase_top weight0 weight0_ok sort_iters pop_least sort_iters_perm sort_iters_sorted pop_least_ok ix D (fun _ => true) (length D) (map fst (dc_toks d)) (built_represents _ _ _ weight0_ok R)) as [res [E T]].
  - intros t J _. exists d. auto.
  - exists res. split; auto. assert (M : true = true /\ map fst (dc_toks d) <> [] /\ has_phrase D (map fst (dc_toks d)) (dc_row d)).
    { split; auto. split; [destruct (dc_toks d); [congruence | discriminate]|]. exists d, 0%Z. split; auto. split; auto. intros k t K. apply nth_map_inv in K. destruct K as [[x z] [K EQ]]. simpl in EQ. subst x.
      rewrite (CONS k t z K) in K. apply nth_error_In in K. replace (0 + Z.of_nat k)%Z with (Z.of_nat k) by lia. auto. }
    destruct (top_complete _ _ _ _ D T) with (d := dc_row d) as [s' [J _]]; auto.
    + intros x [_ [_ [d' [p [ID [RD _]]]]]]. rewrite <- RD. apply in_map. auto.
    + apply (in_map fst _ (dc_row d, s')). auto.
Qed.

(* ---- the plan ---- *)
Definition col4 : column := {| cl_index := index4; cl_rest := [row 20 [1; 3; 3]; row 21 [6]] |}.
Definition col5 : column := {| cl_index := update0 ix_empty [row 5 [1; 1]; row 7 [2]]; cl_rest := [row 20 [2]; row 21 [3]] |}.
Example cols_ok : Forall2 (fun c D => built weight0 (cl_index c) D) [col4; col5] [docs4'; [row 5 [1; 1]; row 7 [2]]].
Proof. apply Forall2_cons; [apply index4_built|]. apply Forall2_cons; [apply build0_built; vm_compute; reflexivity | apply Forall2_nil]. Qed.
Example fts4 : rows_of (fts0 [col4; col5] (fun _ => true) false (Some 2) [1]) = Some [20%N; 4%N]
  /\ rows_of (fts0 [col4; col5] (fun r => negb (N.eqb r 4)) false None [1; 2]) = Some [5%N; 20%N; 8%N; 7%N].
Proof. vm_compute. split; reflexivity. Qed.
Example search4 : rows_of (search0 index4 (fun _ => true) false 2 [1; 2; 6]) = Some [5%N; 4%N] /\ rows_of (search0 index4 (fun r => negb (N.eqb r 4)) false 2 [1; 2; 6]) = Some [8%N; 5%N].
Proof. vm_compute. split; reflexivity. Qed.

(* with a limit and an offset the rows of the offset are taken from those of the limit *)
Theorem limit_offset_refuted : ~ forall cols Ds sel limit offset q res all, Forall2 (fun c D => built weight0 (cl_index c) D) cols Ds ->
  scan0 cols sel false (Some limit) (Some offset) q = Some res -> fts0 cols sel false None q = Some all -> length res = Nat.min limit (length all - offset).
Proof.
  intro H. destruct (scan0 [col4; col5] (fun _ => true) false (Some 2) (Some 1) [1]) as [res|] eqn:E; [|vm_compute in E; discriminate].
  destruct (fts0 [col4; col5] (fun _ => true) false None [1]) as [all|] eqn:F; [|vm_compute in F; discriminate].
  pose proof (H _ _ _ _ _ _ _ _ cols_ok E F) as L. vm_compute in E, F. injection E as <-. injection F as <-. discriminate.
Qed.
(* a phrase query takes rows outside the index that do not hold the phrase *)
Theorem phrase_unindexed_refuted : ~ forall c D sel limit q res, built weight0 (cl_index c) D -> fts0 [c] sel true limit q = Some res ->
  forall r s, In (r, s) res -> has_phrase (D ++ cl_rest c) q r.
Proof.
  intro H. destruct (fts0 [col4] (fun _ => true) true (Some 5) [1; 2]) as [res|] eqn:E; [|vm_compute in E; discriminate].
  assert (J : exists s, In (20%N, s) res) by (vm_compute in E; injection E as <-; eexists; right; right; left; reflexivity). destruct J as [s J].
  destruct (H col4 docs4' _ _ _ _ index4_built E 20%N s J) as [d [p [I [RD F]]]]. clear E J.
  assert (d = row 20 [1; 3; 3]) by (simpl in I; intuition; subst d; vm_compute in RD; discriminate). subst d.
  specialize (F 1 2 eq_refl). simpl in F. intuition discriminate.
Qed.
(* one text scores differently inside and outside the index *)
Theorem unindexed_score_refuted : ~ forall ix D q d d', built weight0 ix D -> In d D -> dc_toks d' = dc_toks d -> (flat_score weight0 ix q d' == score_of weight0 D q (dc_row d))%Q.
Proof.
  intro H. specialize (H index4 docs4' [1] (row 5 [2; 1; 2; 3]) (row 22 [2; 1; 2; 3]) index4_built ltac:(right; right; left; auto) eq_refl). vm_compute in H. discriminate.
Qed.
(* a factor above one can leave out the best row *)
Theorem factor_refuted : ~ forall ix D sel limit q res, built weight0 ix D ->
  wand_search sel (fun n => weight0 n (ds_len (ix_docs ix))) (bm25 (ix_docs ix)) (fun s => (2 * s)%Q) sort_iters pop_least false limit (known ix q) = Some res ->
  is_top limit (fun r => sel r = true /\ has_token D q r) (score_of weight0 D q) res.
Proof.
  intro H. set (D := [row 0 [1; 3; 3; 3; 3]; row 1 [1; 3; 3]; row 2 [1]]). assert (R : built weight0 (update0 ix_empty D) D) by (apply build0_built; vm_compute; reflexivity).
  destruct (wand_search (fun _ => true) (fun n => weight0 n (ds_len (ix_docs (update0 ix_empty D)))) (bm25 (ix_docs (update0 ix_empty D))) (fun s => (2 * s)%Q) sort_iters pop_least false 1 (known (update0 ix_empty D) [1]))
    as [res|] eqn:E; [|vm_compute in E; discriminate].
  pose proof (H _ _ _ _ _ _ R E) as [_ [_ [_ T]]]. vm_compute in E. injection E as <-.
  destruct (T 2%N) as [_ B].
  - split; auto. exists (row 2 [1]), 1, 0%Z. repeat split; simpl; auto.
  - simpl. intuition discriminate.
  - specialize (B 1%N _ (or_introl eq_refl)). vm_compute in B. apply B. reflexivity.
Qed.
