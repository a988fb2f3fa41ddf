(* The plan of a full-text query: columns, rows outside the index, limit and offset. *)
From Coq Require Import List Arith NArith ZArith QArith Bool Lia Lqa Permutation Sorted.
From Verif Require Import Lib FtsModel FtsProofs FtsPhrase FtsIndex FtsIndexProofs FtsSearch.
Import ListNotations.
Local Open Scope nat_scope.

(* the best [k] rows of scored rows, a row counting with its greatest score; no limit: all of them *)
Definition best (hit : N -> Q -> Prop) (d : N) (s : Q) : Prop := hit d s /\ forall s', hit d s' -> (s' <= s)%Q.
Definition best_rows (limit : option nat) (hit : N -> Q -> Prop) (res : list (N * Q)) : Prop :=
  NoDup (map fst res)
  /\ (forall d s, In (d, s) res -> best hit d s)
  /\ StronglySorted (fun a b => (snd b <= snd a)%Q) res
  /\ match limit with
     | Some k => length res <= k /\ (forall d s, hit d s -> ~ In d (map fst res) -> length res = k /\ forall d' s', In (d', s') res -> (s <= s')%Q)
     | None => forall d s, hit d s -> In d (map fst res)
     end.

Lemma group_in : forall l r s, In (r, s) (group_max l) -> In (r, s) l /\ forall s', In (r, s') l -> (s' <= s)%Q.
Proof.
  induction l as [|[a x] l IH]; simpl; intros r s I; [tauto|]. destruct (existsb (fun e => N.eqb (fst e) a) (group_max l)) eqn:E.
  - apply in_map_iff in I. destruct I as [[b y] [EQ I]]. simpl in EQ. destruct (IH b y I) as [A B]. destruct (N.eqb_spec b a) as [->|NE].
    + injection EQ as <- <-. split; [unfold qmax; destruct (Qle_bool y x); auto|]. intros s' [H|H]; [injection H as <-; apply qmax_l|].
      pose proof (qmax_r x y). specialize (B s' H). lra.
    + injection EQ as <- <-. split; auto. intros s' [H|H]; [injection H as <- _; congruence | auto].
  - assert (NI : forall s0, ~ In (a, s0) (group_max l)).
    { intros s0 J. assert (X : existsb (fun e => N.eqb (fst e) a) (group_max l) = true) by (apply existsb_exists; exists (a, s0); split; [auto | simpl; apply N.eqb_refl]). congruence. }
    destruct I as [H|I].
    + injection H as <- <-. split; auto. intros s' [H|H]; [injection H as <-; lra|]. exfalso.
      assert (K : forall l r s, In (r, s) l -> exists s', In (r, s') (group_max l)).
      { clear. induction l as [|[a x] l IH]; simpl; intros r s I; [tauto|]. destruct (existsb (fun e => N.eqb (fst e) a) (group_max l)) eqn:E.
        - assert (EX : exists s', In (r, s') (group_max l)).
          { destruct I as [H|I]; [|eauto]. injection H as <- _. apply existsb_exists in E. destruct E as [[b y] [J Q]]. simpl in Q. apply N.eqb_eq in Q. subst b. eauto. }
          destruct EX as [s' J]. destruct (N.eqb_spec r a) as [->|NE].
          + exists (qmax x s'). apply in_map_iff. exists (a, s'). simpl. rewrite N.eqb_refl. auto.
          + exists s'. apply in_map_iff. exists (r, s'). simpl. rewrite (proj2 (N.eqb_neq _ _) NE). auto.
        - destruct I as [H|I]; [injection H as <- <-; exists x; left; auto|]. destruct (IH r s I) as [s' J]. exists s'. right. auto. }
      destruct (K l a s' H) as [s0 J]. apply (NI s0 J).
    + destruct (IH r s I) as [A B]. split; auto. intros s' [H|H]; [injection H as <- _; exfalso; apply (NI s I) | auto].
Qed.
Lemma group_rows : forall l r, In r (map fst (group_max l)) <-> In r (map fst l).
Proof.
  induction l as [|[a x] l IH]; simpl; intros r; [tauto|]. destruct (existsb (fun e => N.eqb (fst e) a) (group_max l)) eqn:E.
  - assert (MK : map fst (map (fun e => if N.eqb (fst e) a then (a, qmax x (snd e)) else e) (group_max l)) = map fst (group_max l)).
    { rewrite map_map. apply map_ext. intros [b y]. simpl. destruct (N.eqb_spec b a); auto. }
    rewrite MK, IH. split; [auto|]. intros [<-|H]; auto. apply existsb_exists in E. destruct E as [[b y] [J Q]]. simpl in Q. apply N.eqb_eq in Q. subst b.
    apply IH. apply (in_map fst _ (a, y)). auto.
  - simpl. rewrite IH. tauto.
Qed.
Lemma group_nodup : forall l, NoDup (map fst (group_max l)).
Proof.
  induction l as [|[a x] l IH]; simpl; [constructor|]. destruct (existsb (fun e => N.eqb (fst e) a) (group_max l)) eqn:E.
  - assert (MK : map fst (map (fun e => if N.eqb (fst e) a then (a, qmax x (snd e)) else e) (group_max l)) = map fst (group_max l)).
    { rewrite map_map. apply map_ext. intros [b y]. simpl. destruct (N.eqb_spec b a); auto. }
    rewrite MK. auto.
  - simpl. constructor; auto. intro I. apply in_map_iff in I. destruct I as [[b y] [EQ J]]. simpl in EQ. subst b.
    assert (X : existsb (fun e => N.eqb (fst e) a) (group_max l) = true) by (apply existsb_exists; exists (a, y); split; [auto | simpl; apply N.eqb_refl]). congruence.
Qed.
Lemma row_once : forall (l : list (N * Q)) r s s', NoDup (map fst l) -> In (r, s) l -> In (r, s') l -> s = s'.
Proof.
  induction l as [|[a x] l IH]; simpl; intros r s s' ND I J; [tauto|]. inversion_clear ND. destruct I as [E|I]; destruct J as [F|J]; try congruence; eauto.
  - injection E as -> ->. exfalso. apply H. apply (in_map fst _ (r, s')). auto.
  - injection F as -> ->. exfalso. apply H. apply (in_map fst _ (r, s)). auto.
Qed.
Lemma sorted_app : forall {A} (R : A -> A -> Prop) a b, StronglySorted R (a ++ b) -> StronglySorted R a /\ StronglySorted R b /\ forall x y, In x a -> In y b -> R x y.
Proof.
  induction a as [|x a IH]; simpl; intros b S; [split; [constructor | split; [auto | intros x y []]]|]. apply StronglySorted_inv in S. destruct S as [S F].
  destruct (IH b S) as [A1 [B1 C1]]. rewrite Forall_forall in F. split; [constructor; auto; apply Forall_forall; intros y I; apply F; apply in_or_app; auto|]. split; auto.
  intros u v [<-|I] J; [apply F; apply in_or_app; auto | auto].
Qed.
Lemma nodup_app_l : forall {A} (a b : list A), NoDup (a ++ b) -> NoDup a.
Proof. induction a; simpl; intros b H; [constructor|]. inversion_clear H. constructor; [intro; apply H0; apply in_or_app; auto | eauto]. Qed.

(* [k] rows of at least [b] leave no place for less among the first [k] *)
Lemma cut_bound : forall (l : list (N * Q)) k b rows, StronglySorted (fun a b => (snd b <= snd a)%Q) l -> NoDup (map fst l) -> NoDup rows -> length rows = k ->
  (forall r, In r rows -> exists s, In (r, s) l /\ (b <= s)%Q) -> length (firstn k l) = k /\ forall d s, In (d, s) (firstn k l) -> (b <= s)%Q.
Proof.
  intros l k b rows SO ND NR LR H. assert (LE : k <= length l).
  { rewrite <- LR, <- (map_length fst l). apply NoDup_incl_length; auto. intros r I. destruct (H r I) as [s [J _]]. apply (in_map fst _ (r, s)). auto. }
  split; [rewrite firstn_length; lia|]. intros d s I. destruct (Qlt_le_dec s b) as [LT|]; [|auto]. exfalso.
  apply in_split in I. destruct I as [a [c E]]. assert (EL : l = a ++ (d, s) :: c ++ skipn k l) by (rewrite <- (firstn_skipn k l) at 1; rewrite E, <- app_assoc; auto).
  assert (LA : length a < k) by (assert (X : length (firstn k l) = k) by (rewrite firstn_length; lia); rewrite E, app_length in X; simpl in X; lia).
  rewrite EL in SO. apply sorted_app in SO. destruct SO as [_ [SO _]]. apply StronglySorted_inv in SO. destruct SO as [_ F]. rewrite Forall_forall in F.
  assert (INC : incl rows (map fst a)).
  { intros r I. destruct (H r I) as [s' [J B]]. rewrite EL in J. apply in_app_or in J. destruct J as [J|[J|J]]; [apply (in_map fst _ (r, s')); auto | injection J as <- <-; lra|].
    specialize (F _ J). simpl in F. lra. }
  apply NoDup_incl_length in INC; auto. rewrite map_length in INC. lia.
Qed.

Section Plan.
  Variable rank : list (N * Q) -> list (N * Q).
  Hypothesis rank_perm : forall l, Permutation (rank l) l.
  Hypothesis rank_sorted : forall l, StronglySorted (fun a b => (snd b <= snd a)%Q) (rank l).

  (* the found rows are hits, and a hit is found as well as [k] others or has been *)
  Definition enough (k : nat) (hit : N -> Q -> Prop) (all : list (N * Q)) : Prop :=
    forall d s, hit d s -> (exists s', In (d, s') all /\ (s <= s')%Q) \/ exists rows, NoDup rows /\ length rows = k /\ forall r, In r rows -> exists s', In (r, s') all /\ (s <= s')%Q.
  Definition complete (hit : N -> Q -> Prop) (all : list (N * Q)) : Prop := forall d s, hit d s -> exists s', In (d, s') all /\ (s <= s')%Q.

  Lemma group_found : forall all d s, (exists s', In (d, s') all /\ (s <= s')%Q) -> exists s', In (d, s') (group_max all) /\ (s <= s')%Q.
  Proof using.
    intros all d s [s' [I L]]. assert (J : In d (map fst (group_max all))) by (apply group_rows; apply (in_map fst _ (d, s')); auto).
    apply in_map_iff in J. destruct J as [[d0 s0] [E J]]. simpl in E. subst d0. exists s0. split; auto. pose proof (proj2 (group_in _ _ _ J) s' I). lra.
  Qed.

  Lemma ranked_nodup : forall all, NoDup (map fst (rank (group_max all))).
  Proof using rank_perm. intros. eapply Permutation_NoDup; [apply Permutation_sym; apply Permutation_map; apply rank_perm | apply group_nodup]. Qed.
  Lemma ranked_in : forall all d s, In (d, s) (rank (group_max all)) <-> In (d, s) (group_max all).
  Proof using rank_perm. intros. split; apply Permutation_in; [apply rank_perm | apply Permutation_sym; apply rank_perm]. Qed.

  Theorem cut_top : forall k (hit : N -> Q -> Prop) all, (forall d s, In (d, s) all -> hit d s) -> enough k hit all -> best_rows (Some k) hit (firstn k (rank (group_max all))).
  Proof using rank_perm rank_sorted.
    intros k hit all H1 H2. set (l := rank (group_max all)).
    assert (ND : NoDup (map fst l)) by apply ranked_nodup. assert (SO := rank_sorted (group_max all)). fold l in SO.
    assert (SPL : l = firstn k l ++ skipn k l) by (symmetry; apply firstn_skipn).
    assert (SF : StronglySorted (fun a b => (snd b <= snd a)%Q) (firstn k l) /\ forall x y, In x (firstn k l) -> In y (skipn k l) -> (snd y <= snd x)%Q).
    { rewrite SPL in SO. apply sorted_app in SO. tauto. }
    assert (IN : forall d s, In (d, s) (firstn k l) -> In (d, s) (group_max all)) by (intros d s I; apply ranked_in; fold l; rewrite SPL; apply in_or_app; auto).
    assert (MANY : forall rows s, NoDup rows -> length rows = k -> (forall r, In r rows -> exists s', In (r, s') all /\ (s <= s')%Q) ->
              length (firstn k l) = k /\ forall d s', In (d, s') (firstn k l) -> (s <= s')%Q).
    { intros rows s NR LR H. apply (cut_bound l k s rows); auto. intros r I. destruct (group_found all r s (H r I)) as [s' [J L]]. exists s'. split; auto. apply ranked_in. auto. }
    split; [|split; [|split; [tauto | split]]].
    - apply (nodup_app_l _ (map fst (skipn k l))). rewrite <- map_app, <- SPL. auto.
    - intros d s I. destruct (group_in _ _ _ (IN d s I)) as [A B]. split; [auto|]. intros s' H. destruct (H2 d s' H) as [F|[rows [NR [LR F]]]].
      + destruct (group_found all d s' F) as [s0 [J L]]. rewrite (row_once _ d s s0 (group_nodup all) (IN d s I) J). auto.
      + apply (proj2 (MANY rows s' NR LR F) d s I).
    - apply firstn_le_length.
    - intros d s H NI. destruct (H2 d s H) as [F|[rows [NR [LR F]]]]; [|apply (MANY rows s NR LR F)].
      destruct (group_found all d s F) as [s0 [J L]]. apply ranked_in in J. fold l in J. rewrite SPL in J. apply in_app_or in J. destruct J as [J|J].
      + exfalso. apply NI. apply (in_map fst _ (d, s0)). auto.
      + split.
        * rewrite firstn_length. assert (skipn k l <> []) by (intro Q; rewrite Q in J; destruct J). assert (k < length l); [|lia].
          destruct (le_lt_dec (length l) k); auto. exfalso. apply H0. apply skipn_all2. auto.
        * intros d' s' I'. pose proof (proj2 SF (d', s') (d, s0) I' J). simpl in H0. lra.
  Qed.
  Theorem full_top : forall (hit : N -> Q -> Prop) all, (forall d s, In (d, s) all -> hit d s) -> complete hit all -> best_rows None hit (rank (group_max all)).
  Proof using rank_perm rank_sorted.
    intros hit all H1 H2. split; [apply ranked_nodup|]. split; [|split; [apply rank_sorted|]].
    - intros d s I. apply ranked_in in I. destruct (group_in _ _ _ I) as [A B]. split; [auto|]. intros s' H.
      destruct (group_found all d s' (H2 d s' H)) as [s0 [J L]]. rewrite (row_once _ d s s0 (group_nodup all) I J). auto.
    - intros d s H. destruct (group_found all d s (H2 d s H)) as [s0 [J L]]. apply (in_map fst _ (d, s0)). apply ranked_in. auto.
  Qed.

  (* ---- what the columns hold ---- *)
  Variable weight : nat -> nat -> Q.
  Hypothesis weight_ok : forall a b, a <= b -> (0 <= weight a b)%Q.
  Variable srt : list piter -> list piter.
  Variable popmin : list (N * Q) -> list (N * Q).
  Hypothesis srt_perm : forall l, Permutation (srt l) l.
  Hypothesis srt_sorted : forall l, StronglySorted (fun a b => it_leb a b = true) (srt l).
  Hypothesis pop_ok : forall l, l <> [] -> exists x, Permutation l (x :: popmin l) /\ forall y, In y l -> (snd x <= snd y)%Q.

  (* a selected row with a token of the query in an indexed row of a column, or of a row outside the index that scores *)
  Definition column_hit (sel : N -> bool) (q : list token) (c : column) (D : list doc) (r : N) (s : Q) : Prop :=
    sel r = true /\
    ((has_token D q r /\ (s == score_of weight D q r)%Q)
     \/ exists d, In d (cl_rest c) /\ dc_row d = r /\ s = flat_score weight (cl_index c) q d /\ (0 < s)%Q).
  Definition query_hit (sel : N -> bool) (q : list token) (cols : list column) (Ds : list (list doc)) (r : N) (s : Q) : Prop :=
    exists c D, In (c, D) (combine cols Ds) /\ column_hit sel q c D r s.

  Lemma top_enough : forall k M score res, is_top k M score res ->
    forall d, M d -> (exists s', In (d, s') res /\ (score d <= s')%Q) \/ exists rows, NoDup rows /\ length rows = k /\ forall r, In r rows -> exists s', In (r, s') res /\ (score d <= s')%Q.
  Proof using.
    intros k M score res [ND [LE [A B]]] d MD. destruct (in_dec N.eq_dec d (map fst res)) as [I|NI].
    - left. apply in_map_iff in I. destruct I as [[d0 s0] [E I]]. simpl in E. subst d0. exists s0. split; auto. rewrite (proj2 (A d s0 I)). lra.
    - right. destruct (B d MD NI) as [L F]. exists (map fst res). split; auto. split; [rewrite map_length; auto|]. intros r I. apply in_map_iff in I. destruct I as [[d0 s0] [E I]].
      simpl in E. subst d0. exists s0. split; auto. eapply F. exact I.
  Qed.
  Lemma top_complete : forall k M score res D, is_top k M score res -> (forall d, M d -> In d (map dc_row D)) -> length D <= k -> forall d, M d -> exists s', In (d, s') res /\ (score d <= s')%Q.
  Proof using.
    intros k M score res D [ND [LE [A B]]] MD LD d H. destruct (in_dec N.eq_dec d (map fst res)) as [I|NI].
    - apply in_map_iff in I. destruct I as [[d0 s0] [E I]]. simpl in E. subst d0. exists s0. split; auto. rewrite (proj2 (A d s0 I)). lra.
    - exfalso. destruct (B d H NI) as [L _]. assert (X : length (d :: map fst res) <= length (map dc_row D)).
      { apply NoDup_incl_length; [constructor; auto|]. intros x [<-|I]; [apply MD; auto|]. apply in_map_iff in I. destruct I as [[d0 s0] [E I]]. simpl in E. subst d0. apply MD. apply (A x s0 I). }
      simpl in X. rewrite !map_length in X. apply (Nat.lt_irrefl k). eapply Nat.lt_le_trans; [|exact LD]. rewrite <- L. exact X.
  Qed.

  Lemma flat_in : forall ix q docs r s, In (r, s) (flat_search weight ix q docs) <-> exists d, In d docs /\ dc_row d = r /\ s = flat_score weight ix q d /\ (0 < s)%Q.
  Proof using.
    intros. unfold flat_search. rewrite filter_In, in_map_iff. split.
    - intros [[d [E I]] P]. injection E as <- <-. exists d. repeat split; auto. simpl in P. destruct (Qlt_le_dec 0 (flat_score weight ix q d)) as [|L]; auto.
      apply Qle_bool_iff in L. rewrite L in P. discriminate.
    - intros [d [I [<- [-> P]]]]. split; [exists d; auto|]. simpl. destruct (Qle_bool (flat_score weight ix q d) 0) eqn:E; auto. apply Qle_bool_iff in E. lra.
  Qed.

  Lemma columns_found : forall cols Ds sel q k, Forall2 (fun c D => represents weight (cl_index c) D) cols Ds ->
    exists a, search_columns weight srt popmin cols sel false k q = Some a
      /\ (forall r s, In (r, s) a -> exists c D, In (c, D) (combine cols Ds) /\ sel r = true /\ has_token D q r /\ (s == score_of weight D q r)%Q)
      /\ (forall c D r, In (c, D) (combine cols Ds) -> sel r = true -> has_token D q r ->
            (exists s', In (r, s') a /\ (score_of weight D q r <= s')%Q)
            \/ exists rows, NoDup rows /\ length rows = k /\ forall x, In x rows -> exists s', In (x, s') a /\ (score_of weight D q r <= s')%Q)
      /\ (fts_rows cols <= k -> forall c D r, In (c, D) (combine cols Ds) -> sel r = true -> has_token D q r -> exists s', In (r, s') a /\ (score_of weight D q r <= s')%Q).
  Proof using weight_ok srt_perm srt_sorted pop_ok.
    intros cols Ds sel q k F. induction F as [|c D cols Ds R F IH]; [exists []; simpl; repeat split; intros; tauto|].
    destruct IH as [b [E [A [B C]]]]. destruct (index_search_top weight weight_ok srt popmin srt_perm srt_sorted pop_ok (cl_index c) D sel k q R) as [a [E1 T]].
    exists (a ++ b). split; [cbn [search_columns]; rewrite E1, E; auto|]. split; [|split].
    - intros r s I. apply in_app_or in I. destruct I as [I|I].
      + destruct T as [_ [_ [T _]]]. destruct (T r s I) as [[S H] Q]. exists c, D. simpl. auto.
      + destruct (A r s I) as [c' [D' [J H]]]. exists c', D'. simpl. auto.
    - intros c' D' r [J|J] S H.
      + injection J as <- <-. destruct (top_enough _ _ _ _ T r (conj S H)) as [[s' [I L]]|[rows [NR [LR G]]]].
        * left. exists s'. split; auto. apply in_or_app. auto.
        * right. exists rows. split; auto. split; auto. intros x X. destruct (G x X) as [s' [I L]]. exists s'. split; auto. apply in_or_app. auto.
      + destruct (B c' D' r J S H) as [[s' [I L]]|[rows [NR [LR G]]]].
        * left. exists s'. split; auto. apply in_or_app. auto.
        * right. exists rows. split; auto. split; auto. intros x X. destruct (G x X) as [s' [I L]]. exists s'. split; auto. apply in_or_app. auto.
    - intros K. unfold fts_rows in K, C. simpl in K. pose proof (Nat.le_trans _ _ _ (Nat.le_add_r _ _) K) as K1. pose proof (Nat.le_trans _ _ _ (Nat.le_add_l _ _) K) as K2.
      intros c' D' r [J|J] S H.
      + injection J as <- <-. destruct (top_complete _ _ _ _ D T) with (d := r) as [s' [I L]]; auto.
        * intros d [_ [d' [t [z [ID [RD _]]]]]]. rewrite <- RD. apply in_map. auto.
        * rewrite <- (proj2 (count_total _ _ (rp_count _ _ _ R))). exact K1.
        * exists s'. split; auto. apply in_or_app. auto.
      + destruct (C K2 c' D' r J S H) as [s' [I L]]. exists s'. split; auto. apply in_or_app. auto.
  Qed.

  Lemma combine_snd : forall (cols : list column) (Ds : list (list doc)) c, length cols = length Ds -> In c cols -> exists D, In (c, D) (combine cols Ds).
  Proof using.
    induction cols as [|x cols IH]; intros [|D Ds] c L I; simpl in *; try tauto; try discriminate. destruct I as [->|I]; [exists D; auto|].
    destruct (IH Ds c (eq_add_S _ _ L) I) as [D' J]. exists D'. auto.
  Qed.

  (* the rows of a query without a phrase: the best [limit] rows over all columns, best first *)
  Theorem query_top : forall cols Ds sel limit q, Forall2 (fun c D => represents weight (cl_index c) D) cols Ds ->
    exists res, fts weight srt popmin rank cols sel false limit q = Some res /\ best_rows limit (query_hit sel q cols Ds) res.
  Proof using weight_ok srt_perm srt_sorted pop_ok rank_perm rank_sorted.
    intros cols Ds sel limit q F. unfold fts. set (k := match limit with Some n => n | None => fts_rows cols end).
    destruct (columns_found cols Ds sel q k F) as [a [E [A [B C]]]]. rewrite E.
    set (b := flat_map _ cols). assert (LEN : length cols = length Ds) by (clear -F; induction F; simpl; auto).
    assert (H1 : forall d s, In (d, s) (a ++ b) -> query_hit sel q cols Ds d s).
    { intros d s I. apply in_app_or in I. destruct I as [I|I].
      - destruct (A d s I) as [c [D [J [S [H Q]]]]]. exists c, D. split; auto. split; auto.
      - unfold b in I. apply in_flat_map in I. destruct I as [c [IC I]]. apply flat_in in I. destruct I as [x [IX [RX [SX P]]]]. apply filter_In in IX. destruct IX as [IX SX'].
        destruct (combine_snd cols Ds c LEN IC) as [D J]. exists c, D. split; auto. split; [rewrite <- RX; auto|]. right. exists x. auto. }
    assert (H0 : forall c D d s, In (c, D) (combine cols Ds) -> sel d = true -> (exists x, In x (cl_rest c) /\ dc_row x = d /\ s = flat_score weight (cl_index c) q x /\ (0 < s)%Q) -> In (d, s) (a ++ b)).
    { intros c D d s J S [x [IX [RX H]]]. apply in_or_app. right. unfold b. apply in_flat_map. exists c. split; [eapply in_combine_l; eauto|]. apply flat_in. exists x.
      split; [apply filter_In; split; [auto | rewrite RX; auto] | auto]. }
    eexists. split; [reflexivity|]. destruct limit as [n|]; cbn [take_limit].
    - apply cut_top; auto. intros d s [c [D [J [S [[H Q]|H]]]]].
      + destruct (B c D d J S H) as [[s' [I L]]|[rows [NR [LR G]]]].
        * left. exists s'. split; [apply in_or_app; auto | rewrite Q; auto].
        * right. exists rows. split; auto. split; auto. intros r X. destruct (G r X) as [s' [I L]]. exists s'. split; [apply in_or_app; auto | rewrite Q; auto].
      + left. exists s. split; [eapply H0; eauto | lra].
    - apply full_top; auto. intros d s [c [D [J [S [[H Q]|H]]]]].
      + destruct (C (Nat.le_refl _) c D d J S H) as [s' [I L]]. exists s'. split; [apply in_or_app; auto | rewrite Q; auto].
      + exists s. split; [eapply H0; eauto | lra].
  Qed.

  (* without an offset the limit changes nothing more; an offset without a limit skips rows of the whole answer *)
  Theorem scan_top : forall cols Ds sel limit q, Forall2 (fun c D => represents weight (cl_index c) D) cols Ds ->
    exists res, scan_fts weight srt popmin rank cols sel false limit None q = Some res /\ best_rows limit (query_hit sel q cols Ds) res.
  Proof using weight_ok srt_perm srt_sorted pop_ok rank_perm rank_sorted.
    intros cols Ds sel limit q F. destruct (query_top cols Ds sel limit q F) as [res [E T]]. exists res. split; auto. unfold scan_fts. rewrite E. cbn [omap skipn].
    destruct limit as [n|]; cbn [take_limit orb]; [|auto]. destruct (0 <? n); cbn [orb]; auto. f_equal. apply firstn_all2. apply T.
  Qed.
  Theorem scan_offset : forall cols Ds sel offset q, Forall2 (fun c D => represents weight (cl_index c) D) cols Ds ->
    exists res, scan_fts weight srt popmin rank cols sel false None (Some offset) q = Some (skipn offset res) /\ best_rows None (query_hit sel q cols Ds) res.
  Proof using weight_ok srt_perm srt_sorted pop_ok rank_perm rank_sorted.
    intros cols Ds sel offset q F. destruct (query_top cols Ds sel None q F) as [res [E T]]. exists res. split; auto. unfold scan_fts. rewrite E. auto.
  Qed.
  (* a limit with an offset: the rows of the limit that are left after the offset *)
  Theorem scan_limit_offset : forall cols Ds sel limit offset q, Forall2 (fun c D => represents weight (cl_index c) D) cols Ds ->
    exists res, scan_fts weight srt popmin rank cols sel false (Some limit) (Some offset) q = Some (skipn offset res) /\ best_rows (Some limit) (query_hit sel q cols Ds) res.
  Proof using weight_ok srt_perm srt_sorted pop_ok rank_perm rank_sorted.
    intros cols Ds sel limit offset q F. destruct (query_top cols Ds sel (Some limit) q F) as [res [E T]]. exists res. split; auto. unfold scan_fts. rewrite E. cbn [omap].
    rewrite orb_true_r. cbn [take_limit]. f_equal. apply firstn_all2. rewrite skipn_length. eapply Nat.le_trans; [apply Nat.le_sub_l | apply T].
  Qed.
End Plan.

(* ---- rows outside the index score when they have a token of the query ---- *)
Section Flat.
  Variable weight : nat -> nat -> Q.
  Hypothesis weight_pos : forall a b, a <= b -> (0 < weight a b)%Q.

  Lemma fold_sum : forall (g : token -> Q) l s, (fold_left (fun s t => s + g t)%Q l s == s + qsum (map g l))%Q.
  Proof using. induction l as [|t l IH]; intros s; simpl; [ring|]. rewrite IH. unfold qsum. simpl. ring. Qed.
  Lemma qsum_nonneg : forall {A} (g : A -> Q) l, (forall x, In x l -> 0 <= g x)%Q -> (0 <= qsum (map g l))%Q.
  Proof using. intros A g l H. rewrite <- (qsum_zero (fun _ : A => 0%Q) l) by reflexivity. apply qsum_le. auto. Qed.
  Lemma qsum_pos : forall {A} (g : A -> Q) l x, (forall x, In x l -> 0 <= g x)%Q -> In x l -> (0 < g x)%Q -> (0 < qsum (map g l))%Q.
  Proof using.
    induction l as [|a l IH]; simpl; intros x H I P; [tauto|]. unfold qsum. simpl. change (fold_right Qplus 0%Q) with qsum.
    pose proof (H a (or_introl eq_refl)). pose proof (qsum_nonneg g l (fun y J => H y (or_intror J))). destruct I as [->|I]; [lra|].
    pose proof (IH x (fun y J => H y (or_intror J)) I P). lra.
  Qed.

  Theorem flat_hit : forall ix D q d, represents weight ix D -> D <> [] -> ((0 < flat_score weight ix q d)%Q <-> exists t z, In t q /\ In (t, z) (dc_toks d)).
  Proof using weight_pos.
    intros ix D q d R NE. unfold flat_score. set (toks := filter _ _). set (g := fun t => (match find_list t (ix_lists ix) with Some p => weight (pl_len p) (ds_len (ix_docs ix)) | None => weight 1 (ds_len (ix_docs ix)) end
       * tf (length toks) (avgdl (ix_docs ix)) (qnat (length (filter (Nat.eqb t) toks))))%Q).
    change (fold_left _ (nodup Nat.eq_dec q) 0%Q) with (fold_left (fun s t => s + g t)%Q (nodup Nat.eq_dec q) 0%Q). rewrite fold_sum, Qplus_0_l.
    assert (WP : forall t, (0 < match find_list t (ix_lists ix) with Some p => weight (pl_len p) (ds_len (ix_docs ix)) | None => weight 1 (ds_len (ix_docs ix)) end)%Q).
    { intros t. rewrite (len_docs weight ix D R). destruct (find_list t (ix_lists ix)) as [p|] eqn:E; apply weight_pos.
      - rewrite (list_len weight ix D R t p E). apply frequency_le.
      - destruct D; [congruence | simpl; apply le_n_S, Nat.le_0_l]. }
    pose proof (avg_nonneg weight ix D R) as AV.
    assert (NN : forall t, (0 <= g t)%Q) by (intros t; unfold g; apply Qmult_le_0_compat; [apply Qlt_le_weak; apply WP | apply tf_nonneg; [auto | apply qnat_nonneg]]).
    split.
    - intros P. destruct (Exists_dec (fun t => existsb (fun e => fst e =? t) (dc_toks d) = true) (nodup Nat.eq_dec q)) as [X|X].
      + intros t. destruct (existsb _ _); [left; auto | right; discriminate].
      + apply Exists_exists in X. destruct X as [t [IT X]]. apply nodup_In in IT. apply existsb_exists in X. destruct X as [[a z] [IZ X]]. apply Nat.eqb_eq in X. simpl in X. subst a. exists t, z. auto.
      + exfalso. apply (Qlt_irrefl 0). rewrite <- (qsum_zero g (nodup Nat.eq_dec q)) at 2; auto. intros t IT. unfold g. rewrite tf_zero; [ring|].
        replace (filter (Nat.eqb t) toks) with (@nil token); [reflexivity|]. symmetry. destruct (filter (Nat.eqb t) toks) as [|y l] eqn:FE; auto. exfalso. apply X. apply Exists_exists. exists t. split; auto.
        assert (IY : In y (filter (Nat.eqb t) toks)) by (rewrite FE; left; auto). apply filter_In in IY. destruct IY as [IY EY]. apply Nat.eqb_eq in EY. subst y.
        unfold toks in IY. apply filter_In in IY. destruct IY as [IY _]. apply in_map_iff in IY. destruct IY as [[a z] [EA IZ]]. simpl in EA. subst a. apply existsb_exists. exists (t, z). split; auto. apply Nat.eqb_refl.
    - intros [t [z [IT IZ]]]. apply (qsum_pos g _ t); [intros; apply NN | apply nodup_In; auto|]. unfold g. apply Qmult_lt_0_compat; [apply WP|].
      assert (LP : 0 < length (filter (Nat.eqb t) toks)).
      { assert (IF : In t (filter (Nat.eqb t) toks)).
        { apply filter_In. split; [|apply Nat.eqb_refl]. unfold toks. apply filter_In. split; [apply (in_map fst _ (t, z)); auto|]. apply existsb_exists. exists t. split; [apply nodup_In; auto | apply Nat.eqb_refl]. }
        destruct (filter (Nat.eqb t) toks); [destruct IF | simpl; apply Nat.lt_0_succ]. }
      unfold tf. pose proof (norm_pos (length toks) (avgdl (ix_docs ix)) AV). pose proof (qnat_pos _ LP). unfold Qdiv. apply Qmult_lt_0_compat; [auto|]. apply Qinv_lt_0_compat. lra.
  Qed.
End Flat.
