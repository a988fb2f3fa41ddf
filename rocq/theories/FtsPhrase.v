(* The position check of FtsModel finds a common position; searches of phrases. *)
From Coq Require Import List Arith NArith ZArith QArith Bool Lia Lqa Permutation Sorted.
From Verif Require Import Lib FtsModel FtsProofs.
Import ListNotations.
Local Open Scope nat_scope.

(* ---- positions ---- *)
Definition common (p : Z) (l : list posit) : Prop := forall x, In x l -> In (p + ps_query x)%Z (ps_positions x).
Definition ps_sorted (l : list posit) : Prop := Forall (fun x => StronglySorted Z.lt (ps_positions x)) l.
(* no common position has been passed *)
Definition ahead (l : list posit) : Prop := forall p x j, common p l -> In x l -> nth_error (ps_positions x) j = Some (p + ps_query x)%Z -> ps_index x <= j.
Definition ps_left (l : list posit) : nat := list_sum (map (fun x => length (ps_positions x) - ps_index x) l).

Lemma sorted_nthz : forall l i j a b, StronglySorted Z.lt l -> nth_error l i = Some a -> nth_error l j = Some b -> i < j -> (a < b)%Z.
Proof.
  induction l; intros; [destruct i; discriminate|]. apply StronglySorted_inv in H. destruct H as [S F]. destruct j; [lia|]. destruct i; simpl in *.
  - injection H0 as ->. rewrite Forall_forall in F. apply F. eapply nth_error_In; eauto.
  - eapply IHl; eauto. lia.
Qed.
(* partition_point on sorted positions *)
Lemma leading_above : forall l b j x, StronglySorted Z.lt l -> nth_error l j = Some x -> (x < b)%Z -> j < leading (fun x => Z.ltb x b) l.
Proof.
  induction l; intros; [destruct j; discriminate|]. apply StronglySorted_inv in H. destruct H as [S F]. simpl. destruct j; simpl in H0.
  - injection H0 as ->. rewrite (proj2 (Z.ltb_lt _ _) H1). lia.
  - pose proof (IHl b j x S H0 H1). rewrite Forall_forall in F. specialize (F x ltac:(eapply nth_error_In; eauto)).
    rewrite (proj2 (Z.ltb_lt a b)) by lia. lia.
Qed.
Lemma leading_below : forall l b j x, nth_error l j = Some x -> (b <= x)%Z -> leading (fun x => Z.ltb x b) l <= j.
Proof.
  induction l; intros; [destruct j; discriminate|]. simpl. destruct (Z.ltb_spec a b); [|lia]. destruct j; simpl in H; [injection H as ->; lia|]. apply (IHl b) in H; auto. lia.
Qed.

Lemma max_loop_some : forall l m s, (forall x, In x l -> ps_position x <> None) -> exists m' s', max_loop l (Some m) s = Some (Some m', s')
  /\ (m <= m')%Z /\ (forall x y, In x l -> ps_position x = Some y -> (y <= m')%Z)
  /\ (s' = true -> s = true /\ m' = m /\ forall x, In x l -> ps_position x = Some m)
  /\ (s = true -> (forall x, In x l -> ps_position x = Some m) -> s' = true).
Proof.
  induction l as [|a l IH]; simpl; intros m s H.
  - exists m, s. split; [reflexivity|]. split; [lia|]. split; [tauto|]. split; [tauto|]. auto.
  - destruct (ps_position a) as [y|] eqn:E; [|exfalso; apply (H a); auto].
    destruct (IH (if Z.ltb m y then y else m) (s && Z.eqb y m) (fun x I => H x (or_intror I))) as [m' [s' [A [B [C [D F]]]]]].
    exists m', s'. split; [auto|]. assert (BB : (m <= m')%Z /\ (y <= m')%Z) by (destruct (Z.ltb_spec m y); lia).
    split; [lia|]. split; [intros x z [->|I] Z; [rewrite E in Z; injection Z as <-; lia | eauto]|]. split.
    + intros T. destruct (D T) as [D1 [D2 D3]]. apply andb_true_iff in D1. destruct D1 as [D1 D4]. apply Z.eqb_eq in D4. subst y.
      rewrite Z.ltb_irrefl in *. split; [auto|]. split; [auto|]. intros x [->|I]; auto.
    + intros T ALL. assert (y = m) by (specialize (ALL a (or_introl eq_refl)); congruence). subst y. rewrite Z.ltb_irrefl, Z.eqb_refl, T in *.
      apply F; auto.
Qed.
Lemma max_loop_none : forall l m s, (exists x, In x l /\ ps_position x = None) -> max_loop l m s = None.
Proof.
  induction l as [|a l IH]; simpl; intros m s [x [I E]]; [destruct I|]. destruct (ps_position a) eqn:A.
  - destruct I as [->|I]; [congruence|]. destruct m; apply IH; eauto.
  - destruct m; auto.
Qed.

Lemma next_common : forall m l p, common p (map (ps_next m) l) <-> common p l.
Proof.
  intros. unfold common. split; intros H x I.
  - specialize (H (ps_next m x) (in_map _ _ _ I)). exact H.
  - apply in_map_iff in I. destruct I as [y [<- I]]. apply (H y I).
Qed.
Lemma positions_spec : forall fuel l, l <> [] -> ps_sorted l -> ahead l -> ps_left l < fuel ->
  exists b, positions_loop fuel l = Some b /\ (b = true <-> exists p, common p l).
Proof.
  induction fuel as [|fuel IH]; intros l NE S AH F; [lia|]. simpl.
  assert (DEC : (exists x, In x l /\ ps_position x = None) \/ (forall x, In x l -> ps_position x <> None)).
  { clear. induction l as [|a l IH]; [right; intros x []|]. destruct (ps_position a) eqn:E; [|left; exists a; split; [left; auto | auto]].
    destruct IH as [[x [I X]]|X]; [left; exists x; split; [right|]; auto|]. right. intros x [<-|I]; [congruence | auto]. }
  destruct DEC as [D|D].
  - rewrite max_loop_none by auto. exists false. split; auto. split; [discriminate|]. intros [p C]. exfalso.
    destruct D as [x [I E]]. destruct (In_nth_error _ _ (C x I)) as [j J]. pose proof (AH p x j C I J) as K.
    unfold ps_position in E. destruct (nth_error (ps_positions x) (ps_index x)) eqn:N0; [discriminate|]. apply nth_error_None in N0.
    assert (nth_error (ps_positions x) j <> None) by congruence. apply nth_error_Some in H. lia.
  - destruct l as [|a l]; [congruence|]. assert (X : max_loop (a :: l) None true = match ps_position a with Some y => max_loop l (Some y) true | None => None end) by (simpl; destruct (ps_position a); reflexivity).
    destruct (ps_position a) as [y|] eqn:E; [|exfalso; apply (D a); [left; auto | auto]].
    destruct (max_loop_some l y true (fun x I => D x (or_intror I))) as [m [s [A [B [C [T U]]]]]].
    rewrite X, A. destruct s.
    + exists true. split; auto. split; auto. intros _. destruct (T eq_refl) as [_ [-> ALL]]. exists y. intros x I.
      assert (PX : ps_position x = Some y) by (destruct I as [<-|I]; auto). unfold ps_position in PX.
      destruct (nth_error (ps_positions x) (ps_index x)) as [z|] eqn:Z; [|discriminate]. simpl in PX. injection PX as <-.
      replace (z - ps_query x + ps_query x)%Z with z by lia. eapply nth_error_In; eauto.
    + assert (CM : forall x z, In x (a :: l) -> ps_position x = Some z -> (z <= m)%Z) by (intros x z [<-|I] Z; [rewrite E in Z; injection Z as <-; lia | eauto]).
      assert (LOW : exists x z, In x (a :: l) /\ ps_position x = Some z /\ (z < m)%Z).
      { destruct (Z.eq_dec y m) as [->|NY]; [|exists a, y; split; [left; auto | split; [auto | lia]]].
        assert (Q : ~ forall x, In x l -> ps_position x = Some m) by (intro Q; specialize (U eq_refl Q); discriminate).
        assert (DD : (forall x, In x l -> ps_position x = Some m) \/ exists x, In x l /\ ps_position x <> Some m).
        { clear. induction l as [|b l IH]; [left; intros x []|]. assert (DE : {ps_position b = Some m} + {ps_position b <> Some m}) by (decide equality; apply Z.eq_dec).
          destruct DE; [|right; exists b; split; [left|]; auto]. destruct IH as [IH|[x [I IH]]]; [left; intros x [<-|I]; auto | right; exists x; split; [right|]; auto]. }
        destruct DD as [DD|[x [I DD]]]; [tauto|]. destruct (ps_position x) as [z|] eqn:PX; [|exfalso; apply (D x); [right; auto | auto]].
        exists x, z. split; [right; auto|]. split; [auto|]. pose proof (C x z I PX). assert (z <> m) by congruence. lia. }
      assert (ST : forall x, In x (a :: l) -> StronglySorted Z.lt (ps_positions x)) by (apply Forall_forall; exact S).
      assert (IDX : forall x, In x (a :: l) -> ps_index x <= ps_index (ps_next m x) /\ (forall z, ps_position x = Some z -> (z < m)%Z -> ps_index x < ps_index (ps_next m x)) /\ ps_index x < length (ps_positions x)).
      { intros x I. destruct (ps_position x) as [z|] eqn:PX; [|exfalso; apply (D x I PX)]. pose proof (CM x z I PX) as ZM. unfold ps_position in PX.
        destruct (nth_error (ps_positions x) (ps_index x)) as [w|] eqn:NW; [|discriminate]. simpl in PX. injection PX as <-.
        assert (LX : ps_index x < length (ps_positions x)) by (apply nth_error_Some; congruence). simpl.
        assert (LTC : (w < m + ps_query x)%Z -> ps_index x < leading (fun x0 : Z => (x0 <? m + ps_query x)%Z) (ps_positions x)) by (intros; eapply leading_above; eauto).
        split; [|split; [intros z' [= <-] L; apply LTC; lia | auto]].
        destruct (Z_lt_dec w (m + ps_query x)); [specialize (LTC l0); lia|]. assert (w = (m + ps_query x)%Z) by lia. subst w.
        destruct (le_lt_dec (ps_index x) (leading (fun x0 : Z => (x0 <? m + ps_query x)%Z) (ps_positions x))) as [|LT]; auto. exfalso.
        set (k := leading (fun x0 : Z => (x0 <? m + ps_query x)%Z) (ps_positions x)) in *.
        destruct (nth_error (ps_positions x) k) as [u|] eqn:NU; [|apply nth_error_None in NU; lia].
        pose proof (sorted_nthz _ _ _ _ _ (ST x I) NU NW LT). apply leading_at in NU. apply Z.ltb_ge in NU. lia. }
      destruct (IH (map (ps_next m) (a :: l))) as [b [PB IFF]].
      * discriminate.
      * apply Forall_forall. intros x I. apply in_map_iff in I. destruct I as [y' [<- I]]. simpl. apply ST. auto.
      * intros p x j CO I J. apply next_common in CO. apply in_map_iff in I. destruct I as [x0 [<- I]]. simpl in *.
        (* every common position is at least the greatest current one *)
        assert (MP : (m <= p)%Z).
        { assert (EX : exists x1, In x1 (a :: l) /\ ps_position x1 = Some m).
          { clear -A E D. assert (G : forall l y s m s', max_loop l (Some y) s = Some (Some m, s') -> m = y \/ exists x, In x l /\ ps_position x = Some m).
            { clear. induction l; simpl; intros; [left; congruence|]. destruct (ps_position a) as [z|] eqn:E; [|discriminate]. apply IHl in H.
              destruct H as [->|[x [I X]]]; [destruct (Z.ltb y z); [right; exists a; auto | left; auto] | right; exists x; auto]. }
            destruct (G _ _ _ _ _ A) as [->|[x [I X]]]; [exists a; split; [left|]; auto | exists x; split; [right|]; auto]. }
          destruct EX as [x1 [I1 P1]]. destruct (In_nth_error _ _ (CO x1 I1)) as [j1 J1]. pose proof (AH p x1 j1 CO I1 J1) as K1.
          unfold ps_position in P1. destruct (nth_error (ps_positions x1) (ps_index x1)) as [w|] eqn:NW; [|discriminate]. simpl in P1. injection P1 as P1.
          destruct (Nat.eq_dec (ps_index x1) j1) as [EQ|NQ]; [rewrite EQ in NW; rewrite NW in J1; injection J1 as ->; lia|].
          pose proof (sorted_nthz _ _ _ _ _ (ST x1 I1) NW J1 ltac:(lia)). lia. }
        eapply leading_below; eauto. lia.
      * assert (LT : ps_left (map (ps_next m) (a :: l)) < ps_left (a :: l)).
        { destruct LOW as [x [z [I [PX ZM]]]]. clear -IDX I PX ZM. unfold ps_left. rewrite map_map. simpl ps_positions.
          assert (LE : forall k, (forall x, In x k -> In x (a :: l)) -> list_sum (map (fun x => length (ps_positions x) - ps_index (ps_next m x)) k) <= list_sum (map (fun x => length (ps_positions x) - ps_index x) k)).
          { induction k; intros SU; simpl; [lia|]. destruct (IDX a0 (SU a0 (or_introl eq_refl))) as [Q _]. simpl in Q. specialize (IHk (fun x I => SU x (or_intror I))). simpl in IHk |- *. lia. }
          assert (EX : exists u v, a :: l = u ++ x :: v) by (apply in_split; auto). destruct EX as [u [v EX]].
          assert (LU := LE u ltac:(intros; rewrite EX; apply in_or_app; auto)). assert (LV := LE v ltac:(intros; rewrite EX; apply in_or_app; right; right; auto)).
          destruct (IDX x I) as [_ [Q1 Q2]]. specialize (Q1 _ PX ZM). rewrite EX. rewrite !map_app, !list_sum_app. cbn [map]. cbn [list_sum fold_right] in *.
          change (fold_right Nat.add 0) with list_sum in *. simpl in Q1, LU, LV |- *. lia. }
        lia.
      * exists b. split; [exact PB|]. rewrite IFF. split; intros [p CO]; exists p; apply (next_common m (a :: l) p); auto.
Qed.

(* ---- phrases ---- *)
Definition positions_ok (p : plist) : Prop := length (pl_pos p) = length (pl_docs p) /\ Forall (StronglySorted Z.lt) (pl_pos p).
(* the row has every token of the query at its place after position [p] *)
Definition phrase_at (keys : list (Z * plist)) (d : N) (p : Z) : Prop :=
  forall q pl, In (q, pl) keys -> exists j f ps, nth_error (pl_docs pl) j = Some (d, f) /\ nth_error (pl_pos pl) j = Some ps /\ In (p + q)%Z ps.
Definition phrase_match (sel : N -> bool) (keys : list (Z * plist)) (d : N) : Prop := sel d = true /\ keys <> [] /\ exists p, phrase_at keys d p.

Lemma find_row_at : forall docs pos j r f ps, StronglySorted N.lt (map fst docs) -> nth_error docs j = Some (r, f) -> nth_error pos j = Some ps -> find_row r docs pos = Some ps.
Proof.
  induction docs; intros; [destruct j; discriminate|]. simpl in H. apply StronglySorted_inv in H. destruct H as [S F].
  destruct pos as [|p pos]; [destruct j; discriminate|]. simpl. destruct j; simpl in *.
  - injection H0 as ->. injection H1 as ->. simpl. rewrite N.eqb_refl. auto.
  - destruct (N.eqb_spec (fst a) r); [|eapply IHdocs; eauto]. exfalso. rewrite Forall_forall in F.
    specialize (F r ltac:(apply (in_map fst _ (r, f)); eapply nth_error_In; eauto)). lia.
Qed.
Lemma row_unique : forall (docs : list (N * Q)) i j r f g, StronglySorted N.lt (map fst docs) -> nth_error docs i = Some (r, f) -> nth_error docs j = Some (r, g) -> i = j.
Proof.
  intros. destruct (lt_eq_lt_dec i j) as [[L|E]|L]; auto; exfalso.
  - pose proof (sorted_nth docs i j _ _ H H0 H1 L). simpl in *. lia.
  - pose proof (sorted_nth docs j i _ _ H H1 H0 L). simpl in *. lia.
Qed.

Section Phrase.
  Variable sel : N -> bool.
  Variable idf : nat -> Q.
  Variable scorer : N -> Q -> Q.
  Variable keys : list (Z * plist).
  Hypothesis lists_ok : Forall (list_ok idf scorer) (lists keys).
  Hypothesis pos_ok : Forall positions_ok (lists keys).

  Lemma key_list : forall i l dead, Permutation (map key (l ++ dead)) keys -> In i (l ++ dead) -> In (it_list i) (lists keys).
  Proof. intros. unfold lists. change (it_list i) with (snd (key i)). apply in_map. eapply Permutation_in; [exact H|]. apply in_map. auto. Qed.

  (* all iterators are at the row *)
  Lemma check_spec : forall l r, l <> [] -> Permutation (map key l) keys -> (forall i, In i l -> it_row i = Some r) ->
    exists b, check_positions l = Some b /\ (b = true <-> exists p, phrase_at keys r p).
  Proof.
    intros l r NE P AT.
    assert (OK : forall i, In i l -> list_ok idf scorer (it_list i) /\ positions_ok (it_list i)).
    { intros i I. assert (J : In (it_list i) (lists keys)) by (apply (key_list i l []); rewrite app_nil_r; auto).
      rewrite Forall_forall in lists_ok, pos_ok. auto. }
    assert (X : exists ps, position_iters l = Some ps /\ Forall2 (fun i x => ps_query x = it_position i /\ ps_index x = 0
                /\ exists j f, nth_error (pl_docs (it_list i)) j = Some (r, f) /\ nth_error (pl_pos (it_list i)) j = Some (ps_positions x)) l ps).
    { clear NE P. induction l as [|i l IH]; [exists []; split; [reflexivity | constructor]|].
      destruct IH as [ps [A B]]; [intros; apply AT; right; auto | intros; apply OK; right; auto|].
      specialize (AT i (or_introl eq_refl)). destruct (OK i (or_introl eq_refl)) as [[S _] [L _]].
      pose proof AT as AT'. unfold it_row, it_doc in AT'. destruct (nth_error (pl_docs (it_list i)) (it_index i)) as [[r' f]|] eqn:E; [|discriminate]. simpl in AT'. injection AT' as ->.
      destruct (nth_error (pl_pos (it_list i)) (it_index i)) as [pp|] eqn:E2.
      2: { apply nth_error_None in E2. assert (nth_error (pl_docs (it_list i)) (it_index i) <> None) by congruence. apply nth_error_Some in H. lia. }
      eexists. split; [simpl; unfold position_iter; rewrite AT, (find_row_at _ _ _ _ _ _ S E E2), A; reflexivity|].
      constructor; auto. simpl. split; [auto|]. split; [auto|]. exists (it_index i), f. auto. }
    destruct X as [ps [PI F]]. unfold check_positions. rewrite PI.
    assert (BACK : forall x, In x ps -> exists i, In i l /\ ps_query x = it_position i /\ ps_index x = 0
                /\ exists j f, nth_error (pl_docs (it_list i)) j = Some (r, f) /\ nth_error (pl_pos (it_list i)) j = Some (ps_positions x)).
    { clear -F. induction F; intros z I; [destruct I|]. destruct I as [<-|I]; [exists x; split; [left; auto | exact H]|].
      destruct (IHF z I) as [i [J K]]. exists i. split; [right; auto | exact K]. }
    assert (FORTH : forall i, In i l -> exists x, In x ps /\ ps_query x = it_position i
                /\ exists j f, nth_error (pl_docs (it_list i)) j = Some (r, f) /\ nth_error (pl_pos (it_list i)) j = Some (ps_positions x)).
    { clear -F. induction F; intros z I; [destruct I|]. destruct I as [<-|I]; [exists y; split; [left; auto | tauto]|].
      destruct (IHF z I) as [i [J K]]. exists i. split; [right; auto | exact K]. }
    destruct (positions_spec (fuel_positions ps) ps) as [b [E IFF]].
    - intros ->. inversion F. subst. congruence.
    - apply Forall_forall. intros x I. destruct (BACK x I) as [i [J [_ [_ [j [f [_ K]]]]]]]. destruct (OK i J) as [_ [_ SS]]. rewrite Forall_forall in SS.
      apply SS. eapply nth_error_In; eauto.
    - intros p x j _ I _. destruct (BACK x I) as [i [_ [_ [-> _]]]]. lia.
    - unfold fuel_positions, ps_left. assert (list_sum (map (fun x => length (ps_positions x) - ps_index x) ps) <= list_sum (map (fun x => length (ps_positions x)) ps)).
      { clear. induction ps; simpl in *; lia. } lia.
    - exists b. split; auto. rewrite IFF. split; intros [p C]; exists p.
      + intros q pl I. apply Permutation_sym in P. apply (Permutation_in _ P) in I. apply in_map_iff in I. destruct I as [i [EK I]]. injection EK as <- <-.
        destruct (FORTH i I) as [x [J [Q [j [f [D K]]]]]]. exists j, f, (ps_positions x). split; [auto|]. split; [auto|]. rewrite <- Q. apply C. auto.
      + intros x I. destruct (BACK x I) as [i [J [Q [_ [j [f [D K]]]]]]]. destruct (C (it_position i) (it_list i)) as [j' [f' [pp [D' [K' IN]]]]].
        { eapply Permutation_in; [exact P|]. apply (in_map key). auto. }
        destruct (OK i J) as [[S _] _]. pose proof (row_unique _ _ _ _ _ _ S D D'). subst j'. rewrite K in K'. injection K' as <-. rewrite Q. auto.
  Qed.

  Lemma phrase_in : forall d q pl, phrase_match sel keys d -> In (q, pl) keys -> In d (map fst (pl_docs pl)).
  Proof. intros d q pl [_ [_ [p H]]] I. destruct (H q pl I) as [j [f [ps [E _]]]]. apply (in_map fst _ (d, f)). eapply nth_error_In; eauto. Qed.
  Lemma phrase_matches : forall d, phrase_match sel keys d -> matches sel (lists keys) d.
  Proof using.
    intros d H. split; [apply H|].
    assert (X : exists q pl, In (q, pl) keys) by (destruct H as [_ [X _]]; clear -X; destruct keys as [|[q pl] k]; [congruence | exists q, pl; left; auto]).
    destruct X as [q [pl I]]. exists pl. split; [unfold lists; apply (in_map snd _ (q, pl)); auto|]. eapply phrase_in; eauto.
  Qed.

  Lemma last_in : forall {A} (l : list A) x, last (map Some l) None = Some x -> In x l.
  Proof. induction l as [|a l IH]; simpl; intros x H; [discriminate|]. destruct l; [simpl in *; injection H as ->; auto|]. right. apply IH. exact H. Qed.
  Lemma last_some : forall {A} (l : list A), l <> [] -> exists x, last (map Some l) None = Some x.
  Proof. induction l as [|a l IH]; intros; [congruence|]. destruct l; [exists a; reflexivity|]. destruct IH as [x E]; [discriminate|]. exists x. exact E. Qed.
  Lemma sorted_last : forall l x i, sorted l -> last (map Some l) None = Some x -> In i l -> i = x \/ it_leb i x = true.
  Proof.
    induction l as [|a l IH]; intros x i S L I; [destruct I|]. apply StronglySorted_inv in S. destruct S as [S F].
    destruct l as [|b l]; [simpl in L; injection L as ->; destruct I as [->|[]]; auto|].
    assert (L' : last (map Some (b :: l)) None = Some x) by exact L. destruct I as [->|I]; [|apply IH; auto].
    right. rewrite Forall_forall in F. apply F. apply last_in. auto.
  Qed.

  Lemma phrase_verdict : forall l dead f m r, whole sel idf scorer keys l dead -> sorted l -> l = f :: m -> it_row f = Some r ->
    exists v, verdict true (length keys) r l = Some v
      /\ match v with
         | None => (forall d, (forall i, In i (l ++ dead) -> reach i d) -> ~ phrase_match sel keys d)
         | Some true => phrase_match sel keys r
         | Some false => (forall i, In i (l ++ dead) -> reach i r) -> ~ phrase_match sel keys r
         end.
  Proof.
    intros l dead f m r [P [G [A D]]] S E R. unfold verdict. assert (LEN : length l + length dead = length keys) by (rewrite <- (Permutation_length P), map_length, app_length; lia).
    assert (RO : forall i d, In i (l ++ dead) -> reach i d -> phrase_match sel keys d -> is_live i = true /\ forall x, it_row i = Some x -> (x <= d)%N).
    { intros i d I RE PM. rewrite Forall_forall in G. apply (reach_row sel idf scorer); auto. apply (phrase_in d (it_position i)); auto.
      change (it_position i, it_list i) with (key i). eapply Permutation_in; [exact P|]. apply in_map. auto. }
    destruct (Nat.eqb_spec (length l) (length keys)) as [EQ|NQ]; simpl.
    - assert (dead = []) by (destruct dead; [auto | simpl in LEN; lia]). subst dead. rewrite app_nil_r in *.
      destruct (last_some l) as [x LX]; [subst; discriminate|]. rewrite LX. pose proof (last_in l x LX) as IX.
      assert (AL := A). unfold alive in AL. rewrite Forall_forall in AL. destruct (live_row _ (AL _ IX)) as [rx [fx [_ RX]]]. rewrite RX. simpl.
      destruct (N.eqb_spec r rx) as [<-|NE].
      + assert (AT : forall i, In i l -> it_row i = Some r).
        { intros i I. destruct (live_row _ (AL _ I)) as [ri [fi [_ RI]]]. assert (r <= ri)%N by (subst l; eapply head_least; eauto).
          destruct (sorted_last l x i S LX I) as [->|LE]; [auto|]. unfold it_leb in LE. rewrite RI, RX in LE. apply N.leb_le in LE. rewrite RI. f_equal. lia. }
        destruct (check_spec l r ltac:(subst; discriminate) P AT) as [b [C IFF]]. rewrite C. simpl. exists (Some b). split; auto.
        destruct b.
        * split; [|split; [intros ->; destruct l; [discriminate | simpl in EQ; discriminate] | apply IFF; auto]].
          rewrite Forall_forall in G. assert (IF : In f l) by (rewrite E; left; auto). unfold it_row in R. destruct (it_doc f) as [[r' ff]|] eqn:EF; [|discriminate]. simpl in R. injection R as ->.
          destruct (G f IF) as [_ [_ [_ GS]]]. eapply GS; eauto.
        * intros _ [_ [_ H]]. apply IFF in H. discriminate.
      + exists (Some false). split; auto. intros RE PM. destruct (RO x r IX (RE x IX) PM) as [_ Q]. specialize (Q _ RX).
        assert (r <= rx)%N by (subst l; eapply head_least; eauto). lia.
    - exists None. split; auto. intros d RE PM. destruct dead as [|i dead]; [simpl in LEN; lia|].
      assert (I : In i (l ++ i :: dead)) by (apply in_or_app; right; left; auto). destruct (RO i d I (RE i I) PM) as [Q _]. inversion D. congruence.
  Qed.
End Phrase.

(* ---- the whole search ---- *)
Lemma top_ext : forall k (M M' : N -> Prop) s s' res, (forall d, M d <-> M' d) -> (forall d, M d -> (s d == s' d)%Q) -> is_top k M s res -> is_top k M' s' res.
Proof.
  intros k M M' s s' res E F [A [B [C D]]]. split; [auto|]. split; [auto|]. split.
  - intros d x I. destruct (C _ _ I) as [X Y]. split; [apply E; auto|]. rewrite <- F; auto.
  - intros d MD NI. apply E in MD. destruct (D d MD NI) as [X Y]. split; auto. intros. rewrite <- F; eauto.
Qed.

Section Main.
  Variable sel : N -> bool.
  Variable idf : nat -> Q.
  Variable scorer : N -> Q -> Q.
  Variable scale : Q -> Q.
  Variable srt : list piter -> list piter.
  Variable popmin : list (N * Q) -> list (N * Q).
  Hypothesis srt_perm : forall l, Permutation (srt l) l.
  Hypothesis srt_sorted : forall l, StronglySorted (fun a b => it_leb a b = true) (srt l).
  Hypothesis pop_ok : forall l, l <> [] -> exists x, Permutation l (x :: popmin l) /\ forall y, In y l -> (snd x <= snd y)%Q.
  Hypothesis scale_ok : forall q, (0 <= q -> scale q <= q)%Q.
  Variable all : list plist.
  Hypothesis all_ok : Forall (list_ok idf scorer) all.

  (* the tokens of the query with their places *)
  Fixpoint query_keys (q : Z) (l : list plist) : list (Z * plist) := match l with [] => [] | p :: l => (q, p) :: query_keys (q + 1) l end.
  Definition has_selected (p : plist) : bool := existsb (fun e => sel (fst e)) (pl_docs p).
  Definition live_keys : list (Z * plist) := filter (fun k => has_selected (snd k)) (query_keys 0 all).

  Lemma new_live : forall q p, is_live (it_new sel idf q p) = has_selected p.
  Proof.
    intros. unfold is_live, it_doc, it_new, has_selected. simpl. induction (pl_docs p) as [|e l IH]; simpl; auto.
    destruct (sel (fst e)); simpl; auto.
  Qed.
  Lemma filter_keys : forall l q, map key (filter is_live (new_iters sel idf q l)) = filter (fun k => has_selected (snd k)) (query_keys q l).
  Proof. induction l; intros; simpl; auto. rewrite new_live. destruct (has_selected a); simpl; rewrite IHl; auto. Qed.
  Lemma query_snd : forall l q, map snd (query_keys q l) = l.
  Proof. induction l; intros; simpl; auto. rewrite IHl. auto. Qed.
  Lemma new_in : forall l q i, In i (new_iters sel idf q l) -> exists q' p, In p l /\ i = it_new sel idf q' p.
  Proof. induction l; simpl; intros; [tauto|]. destruct H as [<-|H]; [exists q, a; auto|]. destruct (IHl _ _ H) as [q' [p [A B]]]. exists q', p. auto. Qed.
  Lemma live_lists : lists live_keys = filter has_selected all.
  Proof.
    unfold lists, live_keys. rewrite <- (query_snd all 0) at 2. generalize (query_keys 0 all). induction l as [|[q p] l IH]; simpl; auto.
    destruct (has_selected p); simpl; rewrite IH; auto.
  Qed.
  Lemma live_matches : forall d, matches sel (lists live_keys) d <-> matches sel all d.
  Proof.
    intros. rewrite live_lists. unfold matches. split; intros [S [p [I J]]]; split; auto; exists p; (split; [|auto]).
    - apply filter_In in I. tauto.
    - apply filter_In. split; auto. unfold has_selected. apply existsb_exists. apply in_map_iff in J. destruct J as [e [<- J]]. exists e. auto.
  Qed.
  Lemma live_score : forall d, sel d = true -> (row_score idf scorer (lists live_keys) d == row_score idf scorer all d)%Q.
  Proof.
    intros d S. rewrite live_lists. unfold row_score. clear all_ok. induction all as [|p l IH]; [reflexivity|]. cbn [filter].
    destruct (has_selected p) eqn:E; cbn [map qsum fold_right]; change (fold_right Qplus 0%Q) with qsum; rewrite IH; [reflexivity|].
    rewrite gives_none; [ring|]. intro I. unfold has_selected in E. assert (X : existsb (fun e => sel (fst e)) (pl_docs p) = true).
    { apply existsb_exists. apply in_map_iff in I. destruct I as [e [<- I]]. exists e. auto. } congruence.
  Qed.

  Lemma main_spec : forall phrase limit (M : N -> Prop), limit <> 0 -> (forall d, M d -> matches sel (lists live_keys) d) ->
    (forall l dead f m r, whole sel idf scorer live_keys l dead -> sorted l -> l = f :: m -> it_row f = Some r ->
       exists v, verdict phrase (length live_keys) r l = Some v
         /\ match v with
            | None => (forall d, (forall i, In i (l ++ dead) -> reach i d) -> ~ M d)
            | Some true => M r
            | Some false => (forall i, In i (l ++ dead) -> reach i r) -> ~ M r
            end) ->
    exists res, wand_search sel idf scorer scale srt popmin phrase limit all = Some res /\ is_top limit M (row_score idf scorer all) res.
  Proof.
    intros phrase limit M NZ MM V. unfold wand_search. rewrite (proj2 (Nat.eqb_neq _ _) NZ). cbn zeta.
    set (l0 := wd_posts (wand_new (new_iters sel idf 0 all))). assert (K : map key l0 = live_keys) by (apply filter_keys).
    assert (NI : forall i, In i l0 -> exists q p, In p all /\ i = it_new sel idf q p).
    { intros i I. unfold l0, wand_new in I. simpl in I. apply filter_In in I. eapply new_in. apply I. }
    assert (OKL : Forall (list_ok idf scorer) (lists live_keys)).
    { rewrite live_lists. apply Forall_forall. intros p I. apply filter_In in I. rewrite Forall_forall in all_ok. apply all_ok. tauto. }
    destruct (search_spec sel idf scorer scale srt popmin srt_perm srt_sorted pop_ok scale_ok live_keys OKL limit M NZ phrase (length live_keys) MM V
                (fuel_of l0) 0%Q None l0 [] []) as [res [E T]].
    - split; [rewrite app_nil_r, K; apply Permutation_refl|]. rewrite app_nil_r. split; [|split; [|constructor]].
      + apply Forall_forall. intros i I. destruct (NI i I) as [q [p [J ->]]]. apply new_good. rewrite Forall_forall in all_ok. auto.
      + apply Forall_forall. intros i I. unfold l0, wand_new in I. simpl in I. apply filter_In in I. tauto.
    - intros d [S _]. right. right. split; [simpl; auto|]. intros i I. rewrite app_nil_r in I. destruct (NI i I) as [q [p [_ ->]]]. apply new_reach. auto.
    - split; [constructor|]. split; [simpl; lia|]. split; [intros d s []|]. left. lra.
    - unfold fuel_of, measure, left_of. lia.
    - exists res. split.
      + rewrite <- K, map_length in E. exact E.
      + apply (top_ext limit M M (row_score idf scorer (lists live_keys))); [tauto | | auto]. intros d MD. apply live_score. apply MM. auto.
  Qed.

  (* a search finds the best rows that have a token of the query *)
  Theorem search_top : forall limit, exists res, wand_search sel idf scorer scale srt popmin false limit all = Some res /\ is_top limit (matches sel all) (row_score idf scorer all) res.
  Proof.
    intros limit. destruct (Nat.eq_dec limit 0) as [->|NZ].
    - exists []. split; auto. split; [constructor|]. split; [auto|]. split; [intros d s []|]. intros d _ _. split; auto. intros d' s' [].
    - destruct (main_spec false limit (matches sel (lists live_keys)) NZ (fun d H => H)) as [res [E T]].
      + intros l dead f m r W S EL R. exists (Some true). split; auto. eapply whole_matches; [exact W | rewrite EL; left; reflexivity | exact R].
      + exists res. split; auto. eapply top_ext; [apply live_matches | reflexivity | exact T].
  Qed.
  (* a search of a phrase finds the best rows with the tokens of the query that have a selected row at their places *)
  Theorem phrase_top : forall limit, Forall positions_ok all ->
    exists res, wand_search sel idf scorer scale srt popmin true limit all = Some res /\ is_top limit (phrase_match sel live_keys) (row_score idf scorer all) res.
  Proof.
    intros limit PO. destruct (Nat.eq_dec limit 0) as [->|NZ].
    - exists []. split; auto. split; [constructor|]. split; [auto|]. split; [intros d s []|]. intros d _ _. split; auto. intros d' s' [].
    - apply main_spec; auto; [apply phrase_matches|]. intros l dead f m r W S E R.
      assert (SUB : forall p, In p (lists live_keys) -> In p all) by (intros p I; rewrite live_lists in I; apply filter_In in I; tauto).
      eapply phrase_verdict; eauto; apply Forall_forall; intros p I; apply SUB in I; rewrite Forall_forall in *; auto.
  Qed.
  (* when every token has a selected row these are the rows with the phrase *)
  Theorem phrase_top_all : forall limit, Forall positions_ok all -> (forall p, In p all -> has_selected p = true) ->
    exists res, wand_search sel idf scorer scale srt popmin true limit all = Some res /\ is_top limit (phrase_match sel (query_keys 0 all)) (row_score idf scorer all) res.
  Proof.
    intros limit PO HS. destruct (phrase_top limit PO) as [res [E T]]. exists res. split; auto.
    assert (K : live_keys = query_keys 0 all).
    { unfold live_keys. clear -HS. revert HS. generalize 0%Z. induction all as [|p l IH]; intros q HS; simpl; auto. rewrite (HS p (or_introl eq_refl)). f_equal. apply IH. intros; apply HS; right; auto. }
    rewrite K in T. auto.
  Qed.
End Main.
