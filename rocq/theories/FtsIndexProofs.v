(* The inverted index holds the statistics of its documents, through updates and remaps, so its searches rank by BM25. *)
From Coq Require Import List Arith NArith ZArith QArith Bool Lia Lqa Permutation Sorted.
From Verif Require Import Lib FtsModel FtsProofs FtsPhrase FtsIndex.
Import ListNotations.
Local Open Scope nat_scope.

(* ---- BM25 over documents, without an index ---- *)
Definition occurs (t : token) (d : doc) : nat := length (filter (fun e => fst e =? t) (dc_toks d)).
Definition total_tokens (D : list doc) : nat := list_sum (map (fun d => length (dc_toks d)) D).
Definition doc_frequency (t : token) (D : list doc) : nat := length (filter (fun d => negb (occurs t d =? 0)) D).
Section Spec.
  Variable weight : nat -> nat -> Q.
  Definition doc_score (D : list doc) (q : list token) (d : doc) : Q :=
    qsum (map (fun t => weight (doc_frequency t D) (length D) * tf (length (dc_toks d)) (qnat (total_tokens D) / qnat (length D)) (qnat (occurs t d)))%Q (nodup Nat.eq_dec q)).
  Definition score_of (D : list doc) (q : list token) (r : N) : Q := match find (fun d => N.eqb (dc_row d) r) D with Some d => doc_score D q d | None => 0%Q end.
  Definition phrase_score (D : list doc) (q : list token) (r : N) : Q :=
    match find (fun d => N.eqb (dc_row d) r) D with
    | Some d => qsum (map (fun t => weight (doc_frequency t D) (length D) * tf (length (dc_toks d)) (qnat (total_tokens D) / qnat (length D)) (qnat (occurs t d)))%Q q)
    | None => 0%Q
    end.
End Spec.
Definition has_token (D : list doc) (q : list token) (r : N) : Prop := exists d t z, In d D /\ dc_row d = r /\ In t q /\ In (t, z) (dc_toks d).
Definition has_phrase (D : list doc) (q : list token) (r : N) : Prop :=
  exists d p, In d D /\ dc_row d = r /\ forall k t, nth_error q k = Some t -> In (t, p + Z.of_nat k)%Z (dc_toks d).

(* ---- lemmas on rationals ---- *)
Lemma qnat_nonneg : forall n, (0 <= qnat n)%Q.
Proof. intros. unfold qnat. change 0%Q with (inject_Z 0). rewrite <- Zle_Qle. lia. Qed.
Lemma qnat_le : forall a b, a <= b -> (qnat a <= qnat b)%Q.
Proof. intros. unfold qnat. rewrite <- Zle_Qle. lia. Qed.
Lemma qnat_pos : forall n, 0 < n -> (0 < qnat n)%Q.
Proof. intros. unfold qnat. change 0%Q with (inject_Z 0). rewrite <- Zlt_Qlt. lia. Qed.
Lemma qdiv_le : forall a b c, (0 <= a -> 0 < b -> b <= c -> a / c <= a / b)%Q.
Proof.
  intros a b c A B C. apply Qle_shift_div_l; [auto|]. assert (c > 0)%Q by lra. setoid_replace (a / c * b)%Q with (a * b / c)%Q by (field; lra).
  apply Qle_shift_div_r; [lra|]. rewrite (Qmult_comm a b), (Qmult_comm a c). apply Qmult_le_compat_r; auto.
Qed.
Lemma qdiv_nonneg : forall a b, (0 <= a -> 0 <= b -> 0 <= a / b)%Q.
Proof. intros a b A B. unfold Qdiv. apply Qmult_le_0_compat; auto. apply Qinv_le_0_compat. auto. Qed.
Lemma norm_pos : forall n a, (0 <= a)%Q -> (0 < norm n a)%Q.
Proof.
  intros n a A. unfold norm. assert (0 <= (3 # 4) * qnat n / a)%Q by (apply qdiv_nonneg; auto; pose proof (qnat_nonneg n); lra). lra.
Qed.
Lemma norm_le : forall n a b, (0 < a -> a <= b -> norm n b <= norm n a)%Q.
Proof.
  intros n a b A B. unfold norm. pose proof (qnat_nonneg n). assert ((3 # 4) * qnat n / b <= (3 # 4) * qnat n / a)%Q by (apply qdiv_le; lra). lra.
Qed.
Lemma tf_nonneg : forall n a f, (0 <= a -> 0 <= f -> 0 <= tf n a f)%Q.
Proof. intros n a f A F. unfold tf. pose proof (norm_pos n a A). apply qdiv_nonneg; lra. Qed.
Lemma tf_zero : forall n a f, (f == 0 -> tf n a f == 0)%Q.
Proof. intros n a f F. unfold tf. rewrite F. unfold Qdiv. ring. Qed.
Lemma tf_mono : forall n a b f, (0 < a -> a <= b -> 0 <= f -> tf n a f <= tf n b f)%Q.
Proof.
  intros n a b f A B F. unfold tf. pose proof (norm_le n a b A B). pose proof (norm_pos n b ltac:(lra)). apply qdiv_le; lra.
Qed.
Lemma qmax_l : forall a b, (a <= qmax a b)%Q.
Proof. intros. unfold qmax. destruct (Qle_bool b a) eqn:E; [lra|]. destruct (Qlt_le_dec a b); [lra|]. apply Qle_bool_iff in q. congruence. Qed.
Lemma qmax_r : forall a b, (b <= qmax a b)%Q.
Proof. intros. unfold qmax. destruct (Qle_bool b a) eqn:E; [apply Qle_bool_iff; auto | lra]. Qed.
Lemma fold_qmax : forall {A} (g : A -> Q) l m, (m <= fold_left (fun m e => qmax m (g e)) l m)%Q /\ forall e, In e l -> (g e <= fold_left (fun m e => qmax m (g e)) l m)%Q.
Proof.
  induction l as [|a l IH]; intros m; simpl; [split; [lra | intros e []]|]. destruct (IH (qmax m (g a))) as [X Y].
  pose proof (qmax_l m (g a)). pose proof (qmax_r m (g a)). split; [lra|]. intros e [<-|I]; [lra | auto].
Qed.

(* ---- sorting entries ---- *)
Lemma insert_perm : forall e l, Permutation (insert e l) (e :: l).
Proof. induction l; simpl; [apply Permutation_refl|]. destruct (N.leb (fst e) (fst a)); [apply Permutation_refl|]. rewrite IHl. apply perm_swap. Qed.
Lemma isort_perm : forall l, Permutation (isort l) l.
Proof. induction l; simpl; [apply Permutation_refl|]. rewrite insert_perm, IHl. apply Permutation_refl. Qed.
Lemma insert_sorted : forall e l, StronglySorted N.lt (map fst l) -> ~ In (fst e) (map fst l) -> StronglySorted N.lt (map fst (insert e l)).
Proof.
  induction l as [|a l IH]; simpl; intros S NI; [repeat constructor|]. apply StronglySorted_inv in S. destruct S as [S F].
  destruct (N.leb_spec (fst e) (fst a)); simpl.
  - assert (fst e < fst a)%N by (assert (fst e <> fst a) by (intro Q; apply NI; left; auto); lia).
    constructor; [constructor; auto|]. constructor; auto. apply Forall_forall. intros x I. rewrite Forall_forall in F. specialize (F x I). lia.
  - constructor; [apply IH; auto|]. apply Forall_forall. intros x I. rewrite Forall_forall in F.
    apply (Permutation_in _ (Permutation_map fst (insert_perm e l))) in I. simpl in I. destruct I as [<-|I]; auto.
Qed.
Lemma isort_sorted : forall l, NoDup (map fst l) -> StronglySorted N.lt (map fst (isort l)).
Proof.
  induction l as [|a l IH]; simpl; intros ND; [constructor|]. inversion_clear ND. apply insert_sorted; auto. intro I. apply H.
  eapply Permutation_in; [apply Permutation_map; apply isort_perm | exact I].
Qed.

(* ---- the index of a list of documents ---- *)
Definition entry_list (t : token) (D : list doc) : list entry := flat_map (entry_of t) D.
Definition doc_ok (d : doc) : Prop := forall t, StronglySorted Z.lt (positions_of t d).
Section Represents.
  Variable weight : nat -> nat -> Q.
  Hypothesis weight_ok : forall a b, a <= b -> (0 <= weight a b)%Q.

  Definition posting (t : token) (ix : inverted) : list entry := match find_list t (ix_lists ix) with Some p => entries_of p | None => [] end.
  Record represents (ix : inverted) (D : list doc) : Prop := {
    rp_nodup : NoDup (map dc_row D);
    rp_docs : Forall doc_ok D;
    rp_count : Permutation (ds_count (ix_docs ix)) (map (fun d => (dc_row d, length (dc_toks d))) D);
    rp_total : ds_total (ix_docs ix) = list_sum (map snd (ds_count (ix_docs ix)));
    rp_lists : forall t, Permutation (posting t ix) (entry_list t D);
    rp_shape : forall t p, find_list t (ix_lists ix) = Some p -> StronglySorted N.lt (map fst (pl_docs p)) /\ length (pl_pos p) = length (pl_docs p);
    rp_bound : forall t p r f, find_list t (ix_lists ix) = Some p -> In (r, f) (pl_docs p) ->
      exists m, pl_max p = Some m /\ (weight (pl_len p) (ds_len (ix_docs ix)) * bm25 (ix_docs ix) r f <= m)%Q }.

  Lemma entry_rows : forall t D, incl (map fst (entry_list t D)) (map dc_row D).
  Proof.
    intros t D r I. apply in_map_iff in I. destruct I as [e [<- I]]. unfold entry_list in I. apply in_flat_map in I. destruct I as [d [ID I]].
    unfold entry_of in I. destruct (positions_of t d) eqn:E; [destruct I|]. destruct I as [<-|[]]. simpl. apply in_map. auto.
  Qed.
  Lemma entry_nodup : forall t D, NoDup (map dc_row D) -> NoDup (map fst (entry_list t D)).
  Proof.
    induction D as [|d D IH]; simpl; intros ND; [constructor|]. inversion_clear ND. specialize (IH H0). rewrite map_app.
    unfold entry_of. destruct (positions_of t d); simpl; auto. constructor; auto. intro I. apply H. apply (entry_rows t D). auto.
  Qed.
  Lemma entry_app : forall t a b, entry_list t (a ++ b) = entry_list t a ++ entry_list t b.
  Proof. intros. unfold entry_list. apply flat_map_app. Qed.
  Lemma entry_in : forall t D r f ps, In (r, (f, ps)) (entry_list t D) -> exists d, In d D /\ dc_row d = r /\ ps = positions_of t d /\ ps <> [] /\ f = qnat (length ps).
  Proof.
    intros. unfold entry_list in H. apply in_flat_map in H. destruct H as [d [I E]]. unfold entry_of in E. destruct (positions_of t d) as [|z zs] eqn:P; [destruct E|].
    destruct E as [E|[]]. injection E as <- <- <-. exists d. rewrite P. repeat split; auto. discriminate.
  Qed.
  Lemma entry_in' : forall t D d, In d D -> positions_of t d <> [] -> In (dc_row d, (qnat (length (positions_of t d)), positions_of t d)) (entry_list t D).
  Proof. intros. unfold entry_list. apply in_flat_map. exists d. split; auto. unfold entry_of. destruct (positions_of t d) eqn:E; [congruence | left; auto]. Qed.

  (* the list of to_batch holds its entries *)
  Lemma batch_entries : forall d l, entries_of (to_batch weight d l) = isort l.
  Proof.
    intros. unfold entries_of, to_batch. simpl. induction (isort l) as [|[r [f ps]] k IH]; simpl; auto. f_equal. auto.
  Qed.
  Lemma batch_shape : forall d l, NoDup (map fst l) -> StronglySorted N.lt (map fst (pl_docs (to_batch weight d l))) /\ length (pl_pos (to_batch weight d l)) = length (pl_docs (to_batch weight d l)).
  Proof. intros. simpl. rewrite map_map. simpl. rewrite !map_length. split; auto. apply isort_sorted. auto. Qed.

  Lemma get_perm : forall a b r, NoDup (map fst a) -> Permutation a b -> get r a = get r b.
  Proof.
    intros a b r ND P. assert (IFF : forall l, NoDup (map fst l) -> forall n, get r l = Some n <-> In (r, n) l).
    { induction l as [|[x y] l IH]; simpl; intros NDl n; [split; [discriminate | tauto]|]. inversion_clear NDl. destruct (N.eqb_spec x r) as [->|NE].
      - split; [intros [= ->]; auto|]. intros [[= ->]|I]; auto. exfalso. apply H. apply (in_map fst _ (r, n)). auto.
      - rewrite IH by auto. split; auto. intros [[= -> _]|I]; [congruence | auto]. }
    assert (ND' : NoDup (map fst b)) by (eapply Permutation_NoDup; [apply Permutation_map; exact P | auto]).
    destruct (get r a) as [n|] eqn:E.
    - apply IFF in E; auto. symmetry. apply IFF; auto. eapply Permutation_in; eauto.
    - destruct (get r b) as [n|] eqn:E'; auto. apply IFF in E'; auto. apply Permutation_sym in P. apply (Permutation_in _ P) in E'. apply IFF in E'; auto. congruence.
  Qed.
  Lemma get_docs : forall D d, NoDup (map dc_row D) -> In d D -> get (dc_row d) (map (fun d => (dc_row d, length (dc_toks d))) D) = Some (length (dc_toks d)).
  Proof.
    induction D as [|x D IH]; simpl; intros d ND I; [tauto|]. inversion_clear ND. destruct I as [->|I]; [rewrite N.eqb_refl; auto|].
    destruct (N.eqb_spec (dc_row x) (dc_row d)) as [E|NE]; [|auto]. exfalso. apply H. rewrite E. apply in_map. auto.
  Qed.
  Lemma count_keys : forall D, map fst (map (fun d => (dc_row d, length (dc_toks d))) D) = map dc_row D.
  Proof. intros. rewrite map_map. auto. Qed.
  Lemma count_nodup : forall c D, NoDup (map dc_row D) -> Permutation c (map (fun d => (dc_row d, length (dc_toks d))) D) -> NoDup (map fst c).
  Proof. intros c D ND P. eapply Permutation_NoDup; [apply Permutation_sym; apply Permutation_map; exact P|]. rewrite count_keys. auto. Qed.

  Lemma count_total : forall c D, Permutation c (map (fun d => (dc_row d, length (dc_toks d))) D) -> list_sum (map snd c) = total_tokens D /\ length c = length D.
  Proof.
    intros c D P. split.
    - rewrite (list_sum_perm _ _ (Permutation_map snd P)). rewrite map_map. auto.
    - rewrite (Permutation_length P), map_length. auto.
  Qed.
  Lemma sum_in : forall D d, In d D -> length (dc_toks d) <= total_tokens D.
  Proof. induction D as [|x D IH]; simpl; intros d I; [tauto|]. unfold total_tokens in *. simpl. destruct I as [->|I]; [lia|]. specialize (IH d I). lia. Qed.

  (* the bound computed with a total that is too great holds *)
  Lemma batch_bound : forall (docs : docset) D l r f, NoDup (map dc_row D) -> Permutation (ds_count docs) (map (fun d => (dc_row d, length (dc_toks d))) D) ->
    total_tokens D <= ds_total docs -> Permutation l (entry_list r D) -> forall x, In (x, f) (pl_docs (to_batch weight docs l)) ->
    exists m, pl_max (to_batch weight docs l) = Some m /\ (weight (pl_len (to_batch weight docs l)) (ds_len docs) * bm25 (ds_load docs) x f <= m)%Q.
  Proof.
    intros docs D l t f ND C TOT P x I. destruct (count_total _ _ C) as [CT CL]. unfold to_batch. cbn [pl_max pl_docs pl_len]. eexists. split; [reflexivity|].
    unfold pl_len. cbn [pl_docs]. rewrite map_length. change (In (x, f) (map (fun e : entry => (fst e, fst (snd e))) (isort l))) in I.
    apply in_map_iff in I. destruct I as [[x' [f' ps]] [E I]]. simpl in E. injection E as -> ->.
    pose proof (Permutation_in _ (isort_perm l) I) as I'. apply (Permutation_in _ P) in I'. destruct (entry_in _ _ _ _ _ I') as [d [ID [RD [PS [PN FE]]]]].
    assert (LEN : length (isort l) <= ds_len docs).
    { rewrite (Permutation_length (isort_perm l)), (Permutation_length P). unfold ds_len. rewrite CL.
      assert (X := NoDup_incl_length (entry_nodup t D ND) (entry_rows t D)). rewrite !map_length in X. exact X. }
    assert (FP : (0 <= f)%Q) by (subst f; apply qnat_nonneg).
    assert (TP : 0 < total_tokens D).
    { pose proof (sum_in D d ID). destruct (dc_toks d) eqn:ET; [exfalso; apply PN; rewrite PS; unfold positions_of; rewrite ET; auto | simpl in H; lia]. }
    assert (NP : 0 < length D) by (destruct D; [destruct ID | simpl; lia]).
    set (g := fun e : entry => bm25 docs (fst e) (fst (snd e))).
    destruct (fold_qmax g (isort l) 0%Q) as [M0 M1]. specialize (M1 _ I). unfold g in M1 at 1. simpl in M1. fold g.
    assert (W : (0 <= weight (length (isort l)) (ds_len docs))%Q) by (apply weight_ok; auto).
    assert (LE : (bm25 (ds_load docs) x f <= bm25 docs x f)%Q).
    { unfold bm25. change (num_tokens (ds_load docs) x) with (num_tokens docs x). apply tf_mono; auto.
      - unfold avgdl, ds_load, ds_len. simpl. rewrite CT, CL. apply Qlt_shift_div_l; [apply qnat_pos; auto|]. rewrite Qmult_0_l. apply qnat_pos. auto.
      - unfold avgdl, ds_load, ds_len. simpl. rewrite CT, CL. apply Qle_shift_div_l; [apply qnat_pos; auto|].
        pose proof (qnat_pos _ NP). setoid_replace (qnat (total_tokens D) / qnat (length D) * qnat (length D))%Q with (qnat (total_tokens D)) by (field; lra). apply qnat_le. auto. }
    rewrite (Qmult_comm (weight _ _)). apply Qmult_le_compat_r; auto. eapply Qle_trans; [exact LE | exact M1].
  Qed.

  Lemma find_map : forall (g : token -> plist -> plist) l t, find_list t (map (fun e => (fst e, g (fst e) (snd e))) l) = omap (g t) (find_list t l).
  Proof. induction l as [|[x p] l IH]; simpl; intros; auto. destruct (Nat.eqb_spec x t); [subst; auto | auto]. Qed.
  Lemma find_tokens : forall (g : token -> plist) l t, find_list t (map (fun t => (t, g t)) l) = if existsb (Nat.eqb t) l then Some (g t) else None.
  Proof. induction l as [|x l IH]; simpl; intros; auto. rewrite (Nat.eqb_sym x t). destruct (Nat.eqb_spec t x); [subst; auto | apply IH]. Qed.
  Lemma add_tokens_in : forall new l t, In t (add_tokens l new) <-> In t l \/ In t new.
  Proof.
    unfold add_tokens. induction new as [|x new IH]; simpl; intros l t; [tauto|]. rewrite IH. destruct (existsb (Nat.eqb x) l) eqn:E.
    - apply existsb_exists in E. destruct E as [y [I E]]. apply Nat.eqb_eq in E. subst y. split; [tauto|]. intros [H|[<-|H]]; auto.
    - rewrite in_app_iff. simpl. tauto.
  Qed.
  Lemma find_in : forall t l, find_list t l = None <-> ~ In t (map fst l).
  Proof.
    induction l as [|[x p] l IH]; simpl; [tauto|]. destruct (Nat.eqb_spec x t) as [->|NE]; [split; [discriminate | intro H; exfalso; apply H; auto]|].
    rewrite IH. intuition.
  Qed.
  Lemma no_entries : forall t D, ~ In t (flat_map (fun d => map fst (dc_toks d)) D) -> entry_list t D = [].
  Proof.
    intros t D H. unfold entry_list. induction D as [|d D IH]; simpl in *; auto. rewrite IH by (intro I; apply H; apply in_or_app; auto). rewrite app_nil_r.
    unfold entry_of. destruct (positions_of t d) as [|z zs] eqn:E; auto. exfalso. apply H. apply in_or_app. left.
    assert (I : In z (positions_of t d)) by (rewrite E; left; auto). unfold positions_of in I. apply in_map_iff in I. destruct I as [[x y] [_ I]].
    apply filter_In in I. destruct I as [I Q]. apply Nat.eqb_eq in Q. simpl in Q. subst x. apply (in_map fst _ (t, y)). auto.
  Qed.

  Lemma del_absent : forall r l, ~ In r (map fst l) -> del r l = l.
  Proof.
    induction l as [|[x n] l IH]; simpl; intros H; auto. destruct (N.eqb_spec x r); [exfalso; apply H; auto|]. simpl. rewrite IH; tauto.
  Qed.
  Lemma add_docs : forall new ds, NoDup (map dc_row new) -> (forall d, In d new -> ~ In (dc_row d) (map fst (ds_count ds))) ->
    let ds' := fold_left (fun ds d => ds_add ds (dc_row d) (length (dc_toks d))) new ds in
    Permutation (ds_count ds') (map (fun d => (dc_row d, length (dc_toks d))) new ++ ds_count ds) /\ ds_total ds' = ds_total ds + total_tokens new.
  Proof.
    induction new as [|d new IH]; intros ds ND F; simpl; [split; [apply Permutation_refl | unfold total_tokens; simpl; lia]|].
    inversion_clear ND. destruct (IH (ds_add ds (dc_row d) (length (dc_toks d))) H0) as [P T].
    - intros x I. simpl. rewrite del_absent by (apply F; left; auto). intros [E|J]; [apply H; rewrite E; apply in_map; auto | apply (F x); [right; auto | auto]].
    - split.
      + etransitivity; [exact P|]. simpl. rewrite del_absent by (apply F; left; auto). rewrite <- Permutation_middle. apply Permutation_refl.
      + rewrite T. simpl. unfold total_tokens. simpl. lia.
  Qed.

  Lemma posting_of : forall ix D t p, represents ix D -> find_list t (ix_lists ix) = Some p -> Permutation (entries_of p) (entry_list t D).
  Proof. intros ix D t p R E. pose proof (rp_lists _ _ R t) as P. unfold posting in P. rewrite E in P. auto. Qed.

  (* an index made of batches over documents *)
  Lemma batches_represent : forall (docs : docset) D (toks : list token) (ls : token -> list entry) ix, NoDup (map dc_row D) -> Forall doc_ok D ->
    Permutation (ds_count docs) (map (fun d => (dc_row d, length (dc_toks d))) D) -> total_tokens D <= ds_total docs ->
    (forall t, Permutation (ls t) (entry_list t D)) -> ix_docs ix = ds_load docs ->
    (forall t, find_list t (ix_lists ix) = Some (to_batch weight docs (ls t)) \/ find_list t (ix_lists ix) = None /\ ls t = []) -> represents ix D.
  Proof.
    intros docs D toks ls ix ND DO C T L ID FL.
    assert (NDL : forall t, NoDup (map fst (ls t))).
    { intros t. eapply Permutation_NoDup; [apply Permutation_sym; apply Permutation_map; apply L|]. apply entry_nodup. auto. }
    constructor; auto.
    - rewrite ID. auto.
    - rewrite ID. auto.
    - intros t. unfold posting. destruct (FL t) as [->|[-> E]]; [rewrite batch_entries, isort_perm; apply L|]. rewrite <- (L t), E. apply Permutation_refl.
    - intros t p E. destruct (FL t) as [E'|[E' _]]; [|congruence]. rewrite E in E'. injection E' as ->. apply batch_shape. auto.
    - intros t p r f E I. destruct (FL t) as [E'|[E' _]]; [|congruence]. rewrite E in E'. injection E' as ->. rewrite ID.
      change (ds_len (ds_load docs)) with (ds_len docs). eapply batch_bound; eauto.
  Qed.

  Theorem empty_represents : represents ix_empty [].
  Proof. constructor; simpl; try constructor; auto; try discriminate. Qed.

  Theorem update_represents : forall ix D new, represents ix D -> NoDup (map dc_row (new ++ D)) -> Forall doc_ok new -> represents (ix_update weight ix new) (new ++ D).
  Proof.
    intros ix D new R ND DO. rewrite map_app in ND.
    assert (NDn : NoDup (map dc_row new)) by (clear -ND; induction (map dc_row new); [constructor|]; inversion_clear ND; constructor; auto; intro; apply H; apply in_or_app; auto).
    assert (DIS : forall d, In d new -> ~ In (dc_row d) (map fst (ds_count (ix_docs ix)))).
    { intros d I J. apply (Permutation_in _ (Permutation_map fst (rp_count _ _ R))) in J. rewrite count_keys in J.
      apply (in_map dc_row) in I. clear -ND I J. induction (map dc_row new); [destruct I|]. inversion_clear ND. destruct I as [->|I]; [apply H; apply in_or_app; auto | auto]. }
    destruct (add_docs new (ix_docs ix) NDn DIS) as [P T].
    set (docs := fold_left (fun ds d => ds_add ds (dc_row d) (length (dc_toks d))) new (ix_docs ix)) in *.
    apply (batches_represent docs (new ++ D) [] (fun t => flat_map (entry_of t) new ++ posting t ix)).
    - rewrite map_app. auto.
    - apply Forall_app. split; auto. apply (rp_docs _ _ R).
    - rewrite P, map_app. apply Permutation_app_head. apply (rp_count _ _ R).
    - rewrite T. rewrite (rp_total _ _ R). destruct (count_total _ _ (rp_count _ _ R)) as [-> _]. unfold total_tokens. rewrite map_app, list_sum_app. lia.
    - intros t. rewrite entry_app. apply Permutation_app_head. apply (rp_lists _ _ R).
    - reflexivity.
    - intros t. unfold ix_update. cbn [ix_lists]. fold docs. set (toks := add_tokens _ _).
      rewrite (find_tokens (fun t => to_batch weight docs (flat_map (entry_of t) new ++ posting t ix))).
      destruct (existsb (Nat.eqb t) toks) eqn:E; [left; auto|]. right. split; auto.
      assert (NT : ~ In t toks) by (intro I; assert (X : existsb (Nat.eqb t) toks = true) by (apply existsb_exists; exists t; split; [auto | apply Nat.eqb_refl]); congruence).
      unfold toks in NT. rewrite add_tokens_in in NT. unfold posting. rewrite (proj2 (find_in t (ix_lists ix))) by tauto. rewrite app_nil_r.
      apply no_entries. tauto.
  Qed.

  (* ---- remap ---- *)
  Definition remap_docs (m : list (N * option N)) (D : list doc) : list doc :=
    flat_map (fun d => match new_row m (dc_row d) with Some r => [{| dc_row := r; dc_toks := dc_toks d |}] | None => [] end) D.
  (* the targets are new rows, each used once *)
  Fixpoint targets (m : list (N * option N)) : list N := match m with [] => [] | (_, Some y) :: m => y :: targets m | (_, None) :: m => targets m end.
  Definition remap_ok (m : list (N * option N)) (rows : list N) : Prop :=
    NoDup (map fst m) /\ NoDup (targets m) /\ forall y, In y (targets m) -> ~ In y rows /\ ~ In y (map fst m).

  Lemma mapped_in : forall r m, mapped r m = None <-> ~ In r (map fst m).
  Proof.
    induction m as [|[x y] m IH]; simpl; [tauto|]. destruct (N.eqb_spec x r) as [->|NE]; [split; [discriminate | intro H; exfalso; apply H; auto]|].
    rewrite IH. intuition.
  Qed.
  Lemma targets_in : forall x y m, mapped x m = Some (Some y) -> In y (targets m).
  Proof.
    induction m as [|[a [b|]] m IH]; simpl; intros H; [discriminate| |]; destruct (N.eqb a x); [injection H as ->; auto | auto | discriminate | auto].
  Qed.
  Lemma targets_inj : forall m, NoDup (targets m) -> forall a b y, mapped a m = Some (Some y) -> mapped b m = Some (Some y) -> a = b.
  Proof.
    induction m as [|[x [z|]] m IH]; simpl; intros ND a b y A B; [discriminate| |].
    - inversion_clear ND. destruct (N.eqb_spec x a) as [EA|NA]; destruct (N.eqb_spec x b) as [EB|NB].
      + congruence.
      + injection A as ->. exfalso. apply H. eapply targets_in; eauto.
      + injection B as ->. exfalso. apply H. eapply targets_in; eauto.
      + eauto.
    - destruct (N.eqb x a); [discriminate|]. destruct (N.eqb x b); [discriminate|]. eauto.
  Qed.
  Lemma new_row_inj : forall m rows, remap_ok m rows -> forall a b y, In a rows -> In b rows -> new_row m a = Some y -> new_row m b = Some y -> a = b.
  Proof.
    intros m rows [_ [NT F]] a b y IA IB A B. unfold new_row in *. destruct (mapped a m) as [u|] eqn:MA; destruct (mapped b m) as [v|] eqn:MB; subst.
    - eapply targets_inj; eauto.
    - injection B as ->. apply targets_in in MA. exfalso. apply (proj1 (F y MA)). auto.
    - injection A as ->. apply targets_in in MB. exfalso. apply (proj1 (F y MB)). auto.
    - congruence.
  Qed.
  Lemma remap_nodup : forall m D, NoDup (map dc_row D) -> remap_ok m (map dc_row D) -> NoDup (map dc_row (remap_docs m D)).
  Proof.
    intros m D ND OK. assert (G : forall E, incl E D -> NoDup (map dc_row E) -> NoDup (map dc_row (remap_docs m E))).
    { induction E as [|d E IH]; simpl; intros IN NDE; [constructor|]. inversion_clear NDE. unfold remap_docs in *. simpl.
      destruct (new_row m (dc_row d)) as [y|] eqn:NR; simpl; [|apply IH; auto; intros x I; apply IN; right; auto].
      constructor; [|apply IH; auto; intros x I; apply IN; right; auto]. intro I. apply in_map_iff in I. destruct I as [d' [RD I]].
      apply in_flat_map in I. destruct I as [e [IE I]]. destruct (new_row m (dc_row e)) as [z|] eqn:NE; [|destruct I]. destruct I as [<-|[]]. simpl in RD. subst z.
      apply H. rewrite (new_row_inj m _ OK (dc_row d) (dc_row e) y); auto; apply in_map; auto; apply IN; [left | right]; auto. }
    apply G; auto. intros x I. auto.
  Qed.
  Lemma remap_entry : forall m t D, remap_entries m (entry_list t D) = entry_list t (remap_docs m D).
  Proof.
    intros m t D. unfold remap_entries, entry_list, remap_docs. induction D as [|d D IH]; simpl; auto. etransitivity; [exact (flat_map_app _ _ _)|]. etransitivity; [|symmetry; exact (flat_map_app _ _ _)]. f_equal; [|exact IH].
    unfold entry_of at 1. destruct (positions_of t d) as [|z zs] eqn:E; simpl.
    - destruct (new_row m (dc_row d)); simpl; auto. unfold entry_of. unfold positions_of in *. simpl. rewrite E. auto.
    - destruct (new_row m (dc_row d)); simpl; auto. unfold entry_of. unfold positions_of in *. simpl. rewrite E. auto.
  Qed.
  Lemma remap_entries_perm : forall m a b, Permutation a b -> Permutation (remap_entries m a) (remap_entries m b).
  Proof. intros. unfold remap_entries. apply Permutation_flat_map. auto. Qed.

  (* remap of counts *)
  Definition remap_counts (m : list (N * option N)) (c : list (N * nat)) : list (N * nat) :=
    flat_map (fun e => match new_row m (fst e) with Some r => [(r, snd e)] | None => [] end) c.
  Lemma remap_counts_perm : forall m a b, Permutation a b -> Permutation (remap_counts m a) (remap_counts m b).
  Proof. intros. unfold remap_counts. apply Permutation_flat_map. auto. Qed.
  Lemma remap1_spec : forall c x y, NoDup (map fst c) -> (forall z, y = Some z -> ~ In z (map fst c)) -> Permutation (ds_remap1 c (x, y)) (remap_counts [(x, y)] c).
  Proof.
    intros c x y ND F. unfold ds_remap1. simpl.
    assert (ABS : ~ In x (map fst c) -> remap_counts [(x, y)] c = c).
    { clear. unfold remap_counts, new_row. simpl. induction c as [|[a n] c IH]; simpl; intros H; auto. destruct (N.eqb_spec x a); [exfalso; apply H; auto|]. simpl. rewrite IH; auto. }
    assert (NONE : y = None -> Permutation (del x c) (remap_counts [(x, y)] c)).
    { intros ->. clear. unfold remap_counts, new_row. simpl. induction c as [|[a n] c IH]; simpl; auto. rewrite (N.eqb_sym a x). destruct (N.eqb x a); simpl; auto. }
    destruct y as [z|]; [|auto]. specialize (F z eq_refl).
    assert (GET : forall l, get x l = None <-> ~ In x (map fst l)).
    { clear. induction l as [|[a n] l IH]; simpl; [tauto|]. destruct (N.eqb_spec a x) as [->|NE]; [split; [discriminate | intro H; exfalso; apply H; auto]|]. rewrite IH. intuition. }
    destruct (get x c) as [n|] eqn:E.
    - assert (DZ : del z (del x c) = del x c).
      { apply del_absent. intro I. apply F. unfold del in I. apply in_map_iff in I. destruct I as [e [<- I]]. apply filter_In in I. apply in_map. tauto. }
      rewrite DZ. clear -ND E F. unfold remap_counts, new_row. simpl. induction c as [|[a k] c IH]; [discriminate|]. simpl in *. inversion_clear ND.
      rewrite (N.eqb_sym x a). destruct (N.eqb_spec a x) as [->|NE]; simpl.
      + injection E as ->. rewrite del_absent by auto. apply perm_skip.
        assert (X : flat_map (fun e : N * nat => match match (if N.eqb x (fst e) then Some (Some z) else None) with Some y => y | None => Some (fst e) end with Some r => [(r, snd e)] | None => [] end) c = c).
        { clear -H. induction c as [|[b k] c IH]; simpl in *; auto. destruct (N.eqb_spec x b); [exfalso; apply H; auto|]. simpl. rewrite IH; auto. }
        rewrite X. apply Permutation_refl.
      + rewrite perm_swap. apply perm_skip. apply IH; auto.
    - rewrite ABS; [apply Permutation_refl|]. apply GET. auto.
  Qed.
  Lemma remap_counts_cons : forall x y m c, (forall z, y = Some z -> ~ In z (map fst m)) ->
    remap_counts ((x, y) :: m) c = remap_counts m (remap_counts [(x, y)] c).
  Proof.
    intros x y m c F. unfold remap_counts. induction c as [|[a n] c IH]; simpl; auto. rewrite flat_map_app, <- IH. f_equal.
    unfold new_row. simpl. destruct (N.eqb_spec x a) as [->|NE]; simpl.
    - destruct y as [z|]; simpl; auto. rewrite (proj2 (mapped_in z m)) by (apply F; auto). auto.
    - rewrite app_nil_r. auto.
  Qed.
  Lemma remap_counts_rows : forall m c r, In r (map fst (remap_counts m c)) -> In r (map fst c) \/ In r (targets m).
  Proof.
    intros m c r I. apply in_map_iff in I. destruct I as [e [<- I]]. unfold remap_counts in I. apply in_flat_map in I. destruct I as [x [IX I]].
    unfold new_row in I. destruct (mapped (fst x) m) as [[y|]|] eqn:M; [|destruct I|].
    - destruct I as [<-|[]]. right. eapply targets_in; eauto.
    - destruct I as [<-|[]]. left. apply (in_map fst _ x). auto.
  Qed.
  Lemma ds_remap_spec : forall m c, NoDup (map fst c) -> remap_ok m (map fst c) -> Permutation (fold_left ds_remap1 m c) (remap_counts m c).
  Proof.
    induction m as [|[x y] m IH]; intros c ND [NK [NT F]].
    - simpl. unfold remap_counts, new_row. simpl. clear. induction c as [|[a n] c IH]; simpl; auto.
    - simpl in NK. inversion_clear NK.
      assert (FY : forall z, y = Some z -> ~ In z (map fst c) /\ ~ In z (map fst m) /\ z <> x /\ ~ In z (targets m)).
      { intros z ->. simpl in NT. inversion_clear NT. destruct (F z (or_introl eq_refl)) as [A B]. simpl in B. intuition. }
      rewrite remap_counts_cons by (intros z Z; apply FY; auto). change (fold_left ds_remap1 ((x, y) :: m) c) with (fold_left ds_remap1 m (ds_remap1 c (x, y))).
      pose proof (remap1_spec c x y ND (fun z Z => proj1 (FY z Z))) as P1.
      assert (ND1 : NoDup (map fst (remap_counts [(x, y)] c))).
      { assert (OK1 : remap_ok [(x, y)] (map fst c)).
        { split; [repeat constructor; simpl; tauto|]. split; [destruct y; simpl; repeat constructor; simpl; tauto|]. intros z I. destruct y as [w|]; [|destruct I].
          destruct I as [<-|[]]. destruct (FY w eq_refl) as [A [B [C _]]]. split; auto. simpl. intuition. }
        clear -ND OK1. assert (G : forall k, incl k c -> NoDup (map fst k) -> NoDup (map fst (remap_counts [(x, y)] k))).
        { induction k as [|[a n] k IHk]; intros IN NDk; [constructor|]. simpl in NDk. inversion_clear NDk. unfold remap_counts in *. simpl.
          destruct (new_row [(x, y)] a) as [b|] eqn:NB; simpl; [|apply IHk; auto; intros z I; apply IN; right; auto].
          constructor; [|apply IHk; auto; intros z I; apply IN; right; auto]. intro I. apply in_map_iff in I. destruct I as [e [EB I]]. apply in_flat_map in I.
          destruct I as [[a' n'] [IA I]]. simpl in I. destruct (new_row [(x, y)] a') as [b'|] eqn:NB'; [|destruct I]. destruct I as [<-|[]]. simpl in EB. subst b'.
          apply H. rewrite (new_row_inj _ _ OK1 a a' b); auto; [apply (in_map fst _ (a', n')); auto | apply (in_map fst _ (a, n)); apply IN; left; auto | apply (in_map fst _ (a', n')); apply IN; right; auto]. }
        apply G; auto. intros z I. auto. }
      assert (ND2 : NoDup (map fst (ds_remap1 c (x, y)))) by (eapply Permutation_NoDup; [apply Permutation_sym; apply Permutation_map; exact P1 | auto]).
      rewrite IH; [apply remap_counts_perm; auto | auto|]. split; [auto|]. split; [destruct y; simpl in NT; [inversion_clear NT; auto | auto]|].
      intros z I. assert (IZ : In z (targets ((x, y) :: m))) by (destruct y; simpl; auto). destruct (F z IZ) as [A B]. simpl in B. split; [|tauto].
      intro J. apply (Permutation_in _ (Permutation_map fst P1)) in J. apply remap_counts_rows in J. destruct J as [J|J]; [auto|].
      destruct y as [w|]; [|destruct J]. destruct J as [->|[]]. apply (proj2 (proj2 (proj2 (FY z eq_refl)))). auto.
  Qed.
  Lemma remap_counts_docs : forall m D, remap_counts m (map (fun d => (dc_row d, length (dc_toks d))) D) = map (fun d => (dc_row d, length (dc_toks d))) (remap_docs m D).
  Proof.
    intros. unfold remap_counts, remap_docs. induction D as [|d D IH]; simpl; auto. rewrite map_app, IH. f_equal. destruct (new_row m (dc_row d)); auto.
  Qed.
  Lemma remap_total : forall m D, total_tokens (remap_docs m D) <= total_tokens D.
  Proof.
    intros. unfold total_tokens, remap_docs. induction D as [|d D IH]; simpl; [lia|]. rewrite map_app, list_sum_app. destruct (new_row m (dc_row d)); simpl in *; lia.
  Qed.

  Theorem remap_represents : forall ix D m, represents ix D -> remap_ok m (map dc_row D) -> represents (ix_remap weight m ix) (remap_docs m D).
  Proof.
    intros ix D m R OK. assert (ND := rp_nodup _ _ R). assert (CN := count_nodup _ _ ND (rp_count _ _ R)).
    assert (OKC : remap_ok m (map fst (ds_count (ix_docs ix)))).
    { destruct OK as [A [B C]]. split; [auto|]. split; [auto|]. intros y I. destruct (C y I) as [C1 C2]. split; auto. intro J. apply C1.
      apply (Permutation_in _ (Permutation_map fst (rp_count _ _ R))) in J. rewrite count_keys in J. auto. }
    apply (batches_represent (ds_remap m (ix_docs ix)) (remap_docs m D) [] (fun t => remap_entries m (posting t ix))).
    - apply remap_nodup; auto.
    - apply Forall_forall. intros d I. unfold remap_docs in I. apply in_flat_map in I. destruct I as [e [IE I]]. destruct (new_row m (dc_row e)); [|destruct I].
      destruct I as [<-|[]]. pose proof (rp_docs _ _ R) as DO. rewrite Forall_forall in DO. intros t. exact (DO e IE t).
    - simpl. rewrite ds_remap_spec by auto. rewrite (remap_counts_perm m _ _ (rp_count _ _ R)), remap_counts_docs. apply Permutation_refl.
    - simpl. rewrite (rp_total _ _ R). destruct (count_total _ _ (rp_count _ _ R)) as [-> _]. apply remap_total.
    - intros t. rewrite (remap_entries_perm m _ _ (rp_lists _ _ R t)). rewrite remap_entry. apply Permutation_refl.
    - reflexivity.
    - intros t. unfold ix_remap. cbn [ix_lists]. rewrite (find_map (fun _ p => to_batch weight (ds_remap m (ix_docs ix)) (remap_entries m (entries_of p)))).
      unfold posting. destruct (find_list t (ix_lists ix)); [left; auto | right; auto].
  Qed.
End Represents.
