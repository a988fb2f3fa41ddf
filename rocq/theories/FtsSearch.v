(* Searches of the inverted index: the best rows by BM25 over the documents. *)
From Coq Require Import List Arith NArith ZArith QArith Bool Lia Lqa Permutation Sorted.
From Verif Require Import Lib FtsModel FtsProofs FtsPhrase FtsIndex FtsIndexProofs.
Import ListNotations.
Local Open Scope nat_scope.

Lemma find_doc : forall D d, NoDup (map dc_row D) -> In d D -> find (fun x => N.eqb (dc_row x) (dc_row d)) D = Some d.
Proof.
  induction D as [|x D IH]; simpl; intros d ND I; [tauto|]. inversion_clear ND. destruct (N.eqb_spec (dc_row x) (dc_row d)) as [E|NE].
  - destruct I as [->|I]; auto. exfalso. apply H. rewrite E. apply in_map. auto.
  - destruct I as [->|I]; [congruence | auto].
Qed.
Lemma nth_map_some : forall {A B} (g : A -> B) l k x, nth_error l k = Some x -> nth_error (map g l) k = Some (g x).
Proof. induction l; intros [|k] x H; simpl in *; try discriminate; auto. congruence. Qed.
Lemma nth_map_inv : forall {A B} (g : A -> B) l k y, nth_error (map g l) k = Some y -> exists x, nth_error l k = Some x /\ g x = y.
Proof. induction l; intros [|k] y H; simpl in *; try discriminate; [injection H as <-; eauto | auto]. Qed.
Lemma entries_nth : forall p j r f ps, length (pl_pos p) = length (pl_docs p) ->
  (nth_error (entries_of p) j = Some (r, (f, ps)) <-> nth_error (pl_docs p) j = Some (r, f) /\ nth_error (pl_pos p) j = Some ps).
Proof.
  intros p. unfold entries_of. generalize (pl_docs p) (pl_pos p). induction l as [|[r0 f0] l IH]; intros [|z l'] j r f ps L; simpl in L; try lia.
  - destruct j; simpl; split; [discriminate | intros []; discriminate | discriminate | intros []; discriminate].
  - destruct j as [|j]; simpl; [split; [intro H; injection H as -> -> ->; auto | intros [A B]; injection A as -> ->; injection B as ->; auto]|]. apply IH. lia.
Qed.
Lemma entries_docs : forall p, length (pl_pos p) = length (pl_docs p) -> map (fun e : entry => (fst e, fst (snd e))) (entries_of p) = pl_docs p.
Proof.
  intros p. unfold entries_of. generalize (pl_docs p) (pl_pos p). induction l as [|[r0 f0] l IH]; intros [|z l'] L; simpl in L; try lia; simpl; auto.
  rewrite IH by lia. auto.
Qed.
Lemma positions_length : forall t d, length (positions_of t d) = occurs t d.
Proof. intros. unfold positions_of, occurs. rewrite map_length. auto. Qed.
Lemma positions_in : forall t d z, In z (positions_of t d) <-> In (t, z) (dc_toks d).
Proof.
  intros. unfold positions_of. rewrite in_map_iff. split.
  - intros [[x y] [<- I]]. apply filter_In in I. destruct I as [I E]. apply Nat.eqb_eq in E. simpl in *. subst. auto.
  - intros I. exists (t, z). split; auto. apply filter_In. split; auto. apply Nat.eqb_refl.
Qed.
Lemma entry_count : forall t D, length (entry_list t D) = doc_frequency t D.
Proof.
  intros t D. unfold entry_list, doc_frequency. induction D as [|d D IH]; simpl; auto. rewrite app_length, IH. unfold entry_of. rewrite <- positions_length.
  destruct (positions_of t d); simpl; auto.
Qed.

Lemma frequency_le : forall t D, doc_frequency t D <= length D.
Proof. intros. unfold doc_frequency. induction D; simpl; [lia|]. destruct (negb _); simpl; lia. Qed.

  Lemma known_all : forall ix q, length (known ix q) = length q -> forall k t, nth_error q k = Some t -> exists p, find_list t (ix_lists ix) = Some p /\ nth_error (known ix q) k = Some p.
  Proof.
    assert (LE : forall ix q, length (known ix q) <= length q) by (induction q as [|t q IH]; simpl; [lia|]; destruct (find_list t (ix_lists ix)); simpl; lia).
    induction q as [|t q IH]; intros L k x H; [destruct k; discriminate|]. simpl in L. simpl. destruct (find_list t (ix_lists ix)) as [p|] eqn:E.
    - simpl in L. destruct k as [|k]; simpl in *; [injection H as <-; exists p; auto|]. apply IH; [lia | auto].
    - specialize (LE ix q). lia.
  Qed.
  Lemma known_short : forall ix q, length (known ix q) <> length q -> exists t, In t q /\ find_list t (ix_lists ix) = None.
  Proof.
    induction q as [|t q IH]; simpl; [lia|]. destruct (find_list t (ix_lists ix)) as [p|] eqn:E; [|exists t; auto]. simpl. intro L.
    destruct IH as [x [A B]]; [lia|]. exists x. auto.
  Qed.
  Lemma keys_nth : forall l a q p, In (q, p) (query_keys a l) <-> exists k, nth_error l k = Some p /\ q = (a + Z.of_nat k)%Z.
  Proof.
    induction l as [|x l IH]; intros a q p; simpl; [split; [tauto | intros [[|k] [H _]]; discriminate]|]. rewrite IH. split.
    - intros [E|[k [A B]]]; [injection E as <- <-; exists 0; simpl; split; [auto | lia] | exists (S k); simpl; split; [auto | lia]].
    - intros [[|k] [A B]]; simpl in *; [left; injection A as ->; f_equal; lia | right; exists k; split; [auto | lia]].
  Qed.


Section Search.
  Variable weight : nat -> nat -> Q.
  Hypothesis weight_ok : forall a b, a <= b -> (0 <= weight a b)%Q.

  Section Of.
    Variable ix : inverted.
    Variable D : list doc.
    Hypothesis R : represents weight ix D.
    Let idf := fun n => weight n (ds_len (ix_docs ix)).
    Let scorer := bm25 (ix_docs ix).

    Lemma len_docs : ds_len (ix_docs ix) = length D.
    Proof using R. unfold ds_len. apply (count_total _ _ (rp_count _ _ _ R)). Qed.
    Lemma num_docs : forall d, In d D -> num_tokens (ix_docs ix) (dc_row d) = length (dc_toks d).
    Proof using R.
      intros d I. unfold num_tokens. rewrite (get_perm _ (map (fun d => (dc_row d, length (dc_toks d))) D)).
      - rewrite (get_docs) by (auto; apply (rp_nodup _ _ _ R)). auto.
      - apply (count_nodup _ D); [apply (rp_nodup _ _ _ R) | apply (rp_count _ _ _ R)].
      - apply (rp_count _ _ _ R).
    Qed.
    Lemma avg_docs : avgdl (ix_docs ix) = (qnat (total_tokens D) / qnat (length D))%Q.
    Proof using R. unfold avgdl. rewrite len_docs, (rp_total _ _ _ R). destruct (count_total _ _ (rp_count _ _ _ R)) as [-> _]. auto. Qed.
    Lemma avg_nonneg : (0 <= avgdl (ix_docs ix))%Q.
    Proof using R. rewrite avg_docs. apply qdiv_nonneg; apply qnat_nonneg. Qed.
    Lemma list_len : forall t p, find_list t (ix_lists ix) = Some p -> pl_len p = doc_frequency t D.
    Proof using R.
      intros t p E. destruct (rp_shape _ _ _ R t p E) as [_ L]. unfold pl_len. rewrite <- (entries_docs p L), map_length, <- entry_count.
      apply Permutation_length. eapply posting_of; eauto.
    Qed.
    Lemma docs_in : forall t p r f, find_list t (ix_lists ix) = Some p -> In (r, f) (pl_docs p) ->
      exists d, In d D /\ dc_row d = r /\ f = qnat (occurs t d) /\ occurs t d <> 0.
    Proof using R.
      intros t p r f E I. destruct (rp_shape _ _ _ R t p E) as [_ L]. rewrite <- (entries_docs p L) in I. apply in_map_iff in I. destruct I as [[r0 [f0 ps]] [EQ I]].
      simpl in EQ. injection EQ as -> ->. apply (Permutation_in _ (posting_of _ _ _ _ _ R E)) in I. apply entry_in in I. destruct I as [d [ID [RD [-> [NE ->]]]]].
      exists d. rewrite positions_length. repeat split; auto. rewrite <- positions_length. destruct (positions_of t d); [congruence | discriminate].
    Qed.
    Lemma docs_at : forall t p d, find_list t (ix_lists ix) = Some p -> In d D -> occurs t d <> 0 ->
      exists j, nth_error (pl_docs p) j = Some (dc_row d, qnat (occurs t d)) /\ nth_error (pl_pos p) j = Some (positions_of t d).
    Proof using R.
      intros t p d E I NE. destruct (rp_shape _ _ _ R t p E) as [_ L].
      assert (NP : positions_of t d <> []) by (rewrite <- positions_length in NE; destruct (positions_of t d); [simpl in NE; congruence | discriminate]).
      pose proof (entry_in' t D d I NP) as J. apply (Permutation_in _ (Permutation_sym (posting_of _ _ _ _ _ R E))) in J.
      apply In_nth_error in J. destruct J as [j J]. exists j. rewrite <- positions_length. apply entries_nth; auto.
    Qed.
    Lemma index_list_ok : forall t p, find_list t (ix_lists ix) = Some p -> list_ok idf scorer p.
    Proof using R weight_ok.
      intros t p E. split; [apply (rp_shape _ _ _ R t p E)|]. intros r f I. destruct (rp_bound _ _ _ R t p r f E I) as [m [PM B]]. unfold idf, scorer, bound_of. rewrite PM.
      split; [|exact B]. destruct (docs_in t p r f E I) as [d [_ [_ [-> _]]]]. apply Qmult_le_0_compat.
      - apply weight_ok. rewrite (list_len t p E), len_docs. apply frequency_le.
      - unfold bm25. apply tf_nonneg; [apply avg_nonneg | apply qnat_nonneg].
    Qed.
    Lemma index_positions_ok : forall t p, find_list t (ix_lists ix) = Some p -> positions_ok p.
    Proof using R.
      intros t p E. destruct (rp_shape _ _ _ R t p E) as [_ L]. split; auto. apply Forall_forall. intros ps I. apply In_nth_error in I. destruct I as [j I].
      destruct (nth_error (pl_docs p) j) as [[r f]|] eqn:DJ.
      - assert (J : nth_error (entries_of p) j = Some (r, (f, ps))) by (apply entries_nth; auto). apply nth_error_In in J.
        apply (Permutation_in _ (posting_of _ _ _ _ _ R E)) in J. apply entry_in in J. destruct J as [d [ID [_ [-> _]]]].
        pose proof (rp_docs _ _ _ R) as DO. rewrite Forall_forall in DO. apply (DO d ID).
      - apply nth_error_None in DJ. assert (j < length (pl_pos p)) by (apply nth_error_Some; congruence). rewrite <- L in DJ. apply Nat.le_ngt in DJ. tauto.
    Qed.

    (* what a token adds to the score of a document *)
    Definition term (t : token) (d : doc) : Q :=
      (weight (doc_frequency t D) (length D) * tf (length (dc_toks d)) (qnat (total_tokens D) / qnat (length D)) (qnat (occurs t d)))%Q.
    Lemma term_zero : forall t d, occurs t d = 0 -> (term t d == 0)%Q.
    Proof using. intros t d E. unfold term. rewrite E. rewrite (tf_zero _ _ (qnat 0)) by reflexivity. ring. Qed.
    Lemma gives_term : forall t p d, find_list t (ix_lists ix) = Some p -> In d D -> (gives idf scorer p (dc_row d) == term t d)%Q.
    Proof using R weight_ok.
      intros t p d E I. destruct (Nat.eq_dec (occurs t d) 0) as [Z|NZ].
      - rewrite term_zero by auto. apply gives_none. intro J. apply in_map_iff in J. destruct J as [[r f] [EQ J]]. simpl in EQ. subst r.
        destruct (docs_in t p _ f E J) as [d' [ID [RD [_ NZ]]]]. apply NZ. replace d' with d; auto.
        pose proof (find_doc D d (rp_nodup _ _ _ R) I) as F1. pose proof (find_doc D d' (rp_nodup _ _ _ R) ID) as F2. rewrite RD in F2. congruence.
      - destruct (docs_at t p d E I NZ) as [j [J _]]. rewrite (gives_at idf scorer p (dc_row d) j _ (index_list_ok t p E) J). unfold idf, scorer, bm25, term.
        rewrite (list_len t p E), len_docs, num_docs, avg_docs by auto. reflexivity.
    Qed.
    Lemma unknown_occurs : forall t d, find_list t (ix_lists ix) = None -> In d D -> occurs t d = 0.
    Proof using R.
      intros t d E I. destruct (Nat.eq_dec (occurs t d) 0); auto. exfalso. rewrite <- positions_length in n.
      assert (NP : positions_of t d <> []) by (destruct (positions_of t d); [simpl in n; congruence | discriminate]).
      pose proof (entry_in' t D d I NP) as J. apply (Permutation_in _ (Permutation_sym (rp_lists _ _ _ R t))) in J. unfold posting in J. rewrite E in J. destruct J.
    Qed.
    Lemma known_score : forall q d, In d D -> (row_score idf scorer (known ix q) (dc_row d) == qsum (map (fun t => term t d) q))%Q.
    Proof using R weight_ok.
      intros q d I. unfold row_score. induction q as [|t q IH]; [reflexivity|]. cbn [known map qsum fold_right]. change (fold_right Qplus 0%Q) with qsum.
      destruct (find_list t (ix_lists ix)) as [p|] eqn:E.
      - cbn [map qsum fold_right]. change (fold_right Qplus 0%Q) with qsum. rewrite (gives_term t p d E I), IH. reflexivity.
      - rewrite IH, (term_zero t d) by (apply unknown_occurs; auto). ring.
    Qed.
    Lemma known_in : forall q p, In p (known ix q) <-> exists t, In t q /\ find_list t (ix_lists ix) = Some p.
    Proof using.
      clear R. induction q as [|t q IH]; simpl; intros p; [split; [tauto | intros [t [[] _]]]|]. destruct (find_list t (ix_lists ix)) as [p'|] eqn:E; simpl; rewrite IH.
      - split; [intros [<-|[x [A B]]]; [exists t; auto | exists x; auto]|]. intros [x [[<-|A] B]]; [left; congruence | right; exists x; auto].
      - split; [intros [x [A B]]; exists x; auto|]. intros [x [[<-|A] B]]; [congruence | exists x; auto].
    Qed.
    Lemma known_ok : forall q, Forall (list_ok idf scorer) (known ix q).
    Proof using R weight_ok. intros q. apply Forall_forall. intros p I. apply known_in in I. destruct I as [t [_ E]]. apply (index_list_ok t p E). Qed.
    Lemma known_positions : forall q, Forall positions_ok (known ix q).
    Proof using R. intros q. apply Forall_forall. intros p I. apply known_in in I. destruct I as [t [_ E]]. apply (index_positions_ok t p E). Qed.
    Lemma occurs_in : forall t d, occurs t d <> 0 <-> exists z, In (t, z) (dc_toks d).
    Proof using.
      clear R. intros. rewrite <- positions_length. split.
      - destruct (positions_of t d) as [|z l] eqn:E; simpl; [congruence|]. intros _. exists z. apply positions_in. rewrite E. left. auto.
      - intros [z I] E. apply positions_in in I. destruct (positions_of t d); [destruct I | discriminate].
    Qed.
    Lemma known_matches : forall sel q r, matches sel (known ix q) r <-> sel r = true /\ has_token D q r.
    Proof using R.
      intros sel q r. unfold matches, has_token. split; intros [S H]; split; auto.
      - destruct H as [p [I J]]. apply known_in in I. destruct I as [t [IT E]]. apply in_map_iff in J. destruct J as [[r0 f] [EQ J]]. simpl in EQ. subst r0.
        destruct (docs_in t p r f E J) as [d [ID [RD [_ NZ]]]]. apply occurs_in in NZ. destruct NZ as [z Z]. exists d, t, z. auto.
      - destruct H as [d [t [z [ID [RD [IT Z]]]]]]. assert (NZ : occurs t d <> 0) by (apply occurs_in; exists z; auto).
        destruct (find_list t (ix_lists ix)) as [p|] eqn:E; [|exfalso; apply NZ; apply unknown_occurs; auto]. exists p. split; [apply known_in; exists t; auto|].
        destruct (docs_at t p d E ID NZ) as [j [J _]]. apply nth_error_In in J. rewrite <- RD. apply (in_map fst _ (dc_row d, qnat (occurs t d))). auto.
    Qed.
  End Of.

  Variable srt : list piter -> list piter.
  Variable popmin : list (N * Q) -> list (N * Q).
  Hypothesis srt_perm : forall l, Permutation (srt l) l.
  Hypothesis srt_sorted : forall l, StronglySorted (fun a b => it_leb a b = true) (srt l).
  Hypothesis pop_ok : forall l, l <> [] -> exists x, Permutation l (x :: popmin l) /\ forall y, In y l -> (snd x <= snd y)%Q.

  Lemma one_ok : forall q, (0 <= q -> (fun s => s) q <= q)%Q.
  Proof using. intros. simpl. lra. Qed.

  Theorem index_search_top : forall ix D sel limit q, represents weight ix D ->
    exists res, ix_search weight srt popmin ix sel false limit q = Some res
      /\ is_top limit (fun r => sel r = true /\ has_token D q r) (score_of weight D q) res.
  Proof using weight_ok srt_perm srt_sorted pop_ok.
    intros ix D sel limit q R. unfold ix_search.
    destruct (search_top sel (fun n => weight n (ds_len (ix_docs ix))) (bm25 (ix_docs ix)) (fun s => s) srt popmin srt_perm srt_sorted pop_ok one_ok
                (known ix (nodup Nat.eq_dec q)) (known_ok ix D R _) limit) as [res [E T]].
    exists res. split; auto. eapply top_ext; [| |exact T].
    - intros r. rewrite (known_matches ix D R). unfold has_token. split; intros [S [d [t [z [A [B [C F]]]]]]]; (split; [auto|]); exists d, t, z; repeat split; auto.
      + apply nodup_In in C. auto.
      + apply nodup_In. auto.
    - intros r M. apply (known_matches ix D R) in M. destruct M as [_ [d [t [z [A [B [C F]]]]]]]. subst r.
      rewrite (known_score ix D R _ d A). unfold score_of. rewrite find_doc by (auto; apply (rp_nodup _ _ _ R)). reflexivity.
  Qed.

  (* the phrase among the rows, when every token of the query that the index knows is in a selected row *)
  Theorem index_phrase_top : forall ix D sel limit q, represents weight ix D ->
    (forall t, In t q -> find_list t (ix_lists ix) <> None -> exists d, In d D /\ sel (dc_row d) = true /\ occurs t d <> 0) ->
    exists res, ix_search weight srt popmin ix sel true limit q = Some res
      /\ is_top limit (fun r => sel r = true /\ q <> [] /\ has_phrase D q r) (phrase_score weight D q) res.
  Proof using weight_ok srt_perm srt_sorted pop_ok.
    intros ix D sel limit q R LIVE. unfold ix_search. destruct (Nat.eqb_spec (length (known ix q)) (length q)) as [L|NL]; cbn [negb].
    - destruct (phrase_top_all sel (fun n => weight n (ds_len (ix_docs ix))) (bm25 (ix_docs ix)) (fun s => s) srt popmin srt_perm srt_sorted pop_ok one_ok
                  (known ix q) (known_ok ix D R _) limit (known_positions ix D R _)) as [res [E T]].
      { intros p I. apply known_in in I. destruct I as [t [IT E]]. destruct (LIVE t IT ltac:(congruence)) as [d [ID [SD NZ]]].
        unfold has_selected. apply existsb_exists. destruct (docs_at ix D R t p d E ID NZ) as [j [J _]]. apply nth_error_In in J. eexists. split; [exact J | auto]. }
      exists res. split; auto. assert (MM : forall r, phrase_match sel (query_keys 0 (known ix q)) r <-> sel r = true /\ q <> [] /\ has_phrase D q r).
      { intros r. unfold phrase_match, has_phrase, phrase_at. split.
        - intros [S [NE [p H]]]. split; auto. assert (NQ : q <> []) by (intros ->; apply NE; reflexivity). split; auto.
          assert (EX : exists d, In d D /\ dc_row d = r).
          { destruct q as [|t0 q0]; [congruence|]. destruct (known_all ix (t0 :: q0) L 0 t0 eq_refl) as [p0 [E0 N0]].
            destruct (H (0 + Z.of_nat 0)%Z p0) as [j [f [ps [A _]]]]; [apply keys_nth; exists 0; auto|]. apply nth_error_In in A. destruct (docs_in ix D R t0 p0 r f E0 A) as [d [ID [RD _]]].
            exists d. auto. }
          destruct EX as [d [ID RD]]. exists d, p. split; auto. split; auto. intros k t K. destruct (known_all ix q L k t K) as [pl [EP NP]].
          destruct (H (0 + Z.of_nat k)%Z pl) as [j [f [ps [A [B C]]]]]; [apply keys_nth; exists k; auto|].
          destruct (rp_shape _ _ _ R t pl EP) as [_ LP]. assert (J : nth_error (entries_of pl) j = Some (r, (f, ps))) by (apply entries_nth; auto). apply nth_error_In in J.
          apply (Permutation_in _ (posting_of _ _ _ _ _ R EP)) in J. apply entry_in in J. destruct J as [d' [ID' [RD' [-> _]]]].
          assert (d' = d). { pose proof (find_doc D d (rp_nodup _ _ _ R) ID) as F1. pose proof (find_doc D d' (rp_nodup _ _ _ R) ID') as F2. rewrite RD' in F2. rewrite RD in F1. congruence. }
          subst d'. apply positions_in in C. replace (p + Z.of_nat k)%Z with (p + (0 + Z.of_nat k))%Z by lia. auto.
        - intros [S [NQ [d [p [ID [RD H]]]]]]. split; auto. split.
          + destruct q as [|t0 q0]; [congruence|]. destruct (known_all ix (t0 :: q0) L 0 t0 eq_refl) as [p0 [E0 N0]]. destruct (known ix (t0 :: q0)); [discriminate | simpl; discriminate].
          + exists p. intros z pl I. apply keys_nth in I. destruct I as [k [K ->]].
            destruct (nth_error q k) as [t|] eqn:QK.
            * destruct (known_all ix q L k t QK) as [pl' [EP NP]]. assert (pl' = pl) by congruence. subst pl'. specialize (H k t QK).
              destruct (docs_at ix D R t pl d EP ID) as [j [A B]]; [apply occurs_in; eexists; exact H|].
              exists j, (qnat (occurs t d)), (positions_of t d). rewrite RD in A. repeat split; auto. apply positions_in. replace (p + (0 + Z.of_nat k))%Z with (p + Z.of_nat k)%Z by lia. auto.
            * apply nth_error_None in QK. assert (k < length (known ix q)) by (apply nth_error_Some; congruence). lia. }
      eapply top_ext; [exact MM | | exact T]. intros r M. apply MM in M. destruct M as [_ [_ [d [p [ID [RD _]]]]]]. subst r.
      rewrite (known_score ix D R _ d ID). unfold phrase_score. rewrite find_doc by (auto; apply (rp_nodup _ _ _ R)). reflexivity.
    - exists []. split; auto. split; [constructor|]. split; [simpl; lia|]. split; [intros d s []|]. intros r [S [NQ [d [p [ID [RD H]]]]]] _. exfalso.
      destruct (known_short ix q NL) as [t [IT E]]. apply In_nth_error in IT. destruct IT as [k K]. specialize (H k t K).
      assert (occurs t d <> 0) by (apply occurs_in; eexists; exact H). apply H0. eapply unknown_occurs; eauto.
  Qed.
End Search.

(* the indices there are: the empty one, updated with new rows and remapped to unused rows *)
Inductive built (weight : nat -> nat -> Q) : inverted -> list doc -> Prop :=
| built_empty : built weight ix_empty []
| built_update : forall ix D new, built weight ix D -> NoDup (map dc_row (new ++ D)) -> Forall doc_ok new -> built weight (ix_update weight ix new) (new ++ D)
| built_remap : forall ix D m, built weight ix D -> remap_ok m (map dc_row D) -> built weight (ix_remap weight m ix) (remap_docs m D).
Theorem built_represents : forall weight ix D, (forall a b, a <= b -> (0 <= weight a b)%Q) -> built weight ix D -> represents weight ix D.
Proof. intros weight ix D W B. induction B; [apply empty_represents | apply update_represents; auto | apply remap_represents; auto]. Qed.
