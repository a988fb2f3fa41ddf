(* C94: comparing schemas. *)
From Coq Require Import List Arith NArith ZArith Bool Lia String Sorting.Sorted.
From Verif Require Import Lib SchemaModel SchemaProofs CmpModel.
Import ListNotations.
Open Scope list_scope.

(* ---- specification ---- *)
Definition same_map (a b : smap) : Prop := forall k, sm_get k a = sm_get k b.
Definition same_dict (a b : option dict) : Prop :=
  (a = None /\ b = None) \/ exists x y v, a = Some x /\ b = Some y /\ di_values x = Some v /\ di_values y = Some v.
(* what is asked of a field apart from its children; e is what is expected *)
Definition same_own (o : copts) (e f : attrs) : Prop :=
  a_name f = a_name e /\ a_type f = a_type e /\
  match c_null o with NStrict => a_null f = a_null e | NOneWay => a_null f = true -> a_null e = true | NIgnore => True end /\
  (c_ids o = true -> a_id f = a_id e) /\ (c_dict o = true -> same_dict (a_dict f) (a_dict e)) /\ (c_meta o = true -> same_map (a_meta f) (a_meta e)).
Definition before {A} (l : list A) (x y : A) : Prop := exists i j, i < j /\ nth_error l i = Some x /\ nth_error l j = Some y.
(* the fields fs are the expected ones: no others; each is there and matches, or may be missing; in the same order unless that does not matter *)
Definition covers (o : copts) (R : rfield -> rfield -> Prop) (es fs : list rfield) : Prop :=
  (forall y, In y fs -> exists x, In x es /\ r_name x = r_name y) /\
  (forall x, In x es -> (exists y, In y fs /\ r_name y = r_name x /\ R x y) \/
                        ((forall y, In y fs -> r_name y <> r_name x) /\ c_missing o = true /\ a_null (r_attrs x) = true)) /\
  (c_order o = false -> forall x x' y y', before es x x' -> In y fs -> In y' fs -> r_name y = r_name x -> r_name y' = r_name x' -> before fs y y').
Inductive compatible (o : copts) : rfield -> rfield -> Prop :=
| compatible_intro : forall ae ce af cf, same_own o ae af -> covers o (compatible o) ce cf -> compatible o (RF ae ce) (RF af cf).
Definition compatible_schemas (o : copts) (s e : rschema) : Prop :=
  covers o (compatible o) (rs_fields e) (rs_fields s) /\ (c_meta o = true -> same_map (rs_meta s) (rs_meta e)).
(* fields next to each other have different names, metadata are maps *)
Inductive tidy : rfield -> Prop :=
| tidy_intro : forall a c, NoDup (map r_name c) -> NoDup (map fst (a_meta a)) -> Forall tidy c -> tidy (RF a c).
Definition tidy_schema (s : rschema) : Prop := NoDup (map r_name (rs_fields s)) /\ NoDup (map fst (rs_meta s)) /\ Forall tidy (rs_fields s).

(* ---- maps and own attributes ---- *)
Lemma sm_get_in : forall m k v, NoDup (map fst m) -> (sm_get k m = Some v <-> In (k, v) m).
Proof.
  induction m as [|[k' v'] t IH]; intros k v D; cbn [sm_get In].
  - split; [discriminate|intros []].
  - inversion D as [|? ? N D']; subst. destruct (String.eqb_spec k' k) as [->|E].
    + split; [intros [= <-]; left; reflexivity|]. intros [[= <-]|H]; [reflexivity|].
      exfalso. apply N. apply (in_map fst) in H. exact H.
    + rewrite (IH k v D'). split; [auto|]. intros [[= -> ->]|H]; [contradiction|exact H].
Qed.
Lemma sm_get_none : forall m k, sm_get k m = None <-> ~ In k (map fst m).
Proof.
  induction m as [|[k' v'] t IH]; intros k; cbn [sm_get map In fst]; [tauto|].
  destruct (String.eqb_spec k' k) as [->|E]; [split; [discriminate|tauto]|]. rewrite IH. tauto.
Qed.
Lemma map_eqb_spec : forall a b, NoDup (map fst a) -> NoDup (map fst b) -> (map_eqb a b = true <-> same_map a b).
Proof.
  intros a b Da Db. unfold map_eqb, same_map. rewrite andb_true_iff, Nat.eqb_eq, forallb_forall. split.
  - intros [L H] k.
    assert (I : incl (map fst a) (map fst b)).
    { intros x X. apply in_map_iff in X as [[k' v] [<- X]]. specialize (H _ X). cbn beta iota in H. cbn [fst].
      destruct (sm_get k' b) eqn:G; [|discriminate]. apply sm_get_in in G; [|exact Db]. apply (in_map fst) in G. exact G. }
    destruct (sm_get k a) as [v|] eqn:G.
    + apply sm_get_in in G; [|exact Da]. specialize (H _ G). cbn beta iota in H. destruct (sm_get k b); [|discriminate].
      apply String.eqb_eq in H. congruence.
    + symmetry. apply sm_get_none. apply sm_get_none in G. intros J. apply G.
      assert (I' : incl (map fst b) (map fst a)) by (apply NoDup_length_incl; [exact Da|rewrite !map_length; lia|exact I]).
      apply I'. exact J.
  - intros H. split.
    + assert (K : forall k, In k (map fst a) <-> In k (map fst b)).
      { intros k. specialize (H k). destruct (sm_get k b) as [v|] eqn:G.
        - apply sm_get_in in G; [|exact Db]. apply sm_get_in in H; [|exact Da]. apply (in_map fst) in G, H. tauto.
        - apply sm_get_none in G, H. tauto. }
      rewrite <- (map_length fst a), <- (map_length fst b). apply Nat.le_antisymm; apply NoDup_incl_length; auto; intros k; apply K.
    + intros [k v] J. apply sm_get_in in J; [|exact Da]. rewrite <- H, J. apply String.eqb_refl.
Qed.
Lemma odict_eqb_spec : forall a b, odict_eqb a b = true <-> same_dict a b.
Proof.
  intros a b. unfold odict_eqb, same_dict, dict_eqb. destruct a as [x|], b as [y|].
  - split.
    + destruct (di_values x) eqn:X, (di_values y) eqn:Y; try discriminate. intros E. apply N.eqb_eq in E. subst. right. eauto 8.
    + intros [[? _]|(x' & y' & v & [= <-] & [= <-] & X & Y)]; [discriminate|]. rewrite X, Y. apply N.eqb_refl.
  - split; [discriminate|]. intros [[? _]|(x' & y' & v & _ & E & _)]; discriminate.
  - split; [discriminate|]. intros [[_ ?]|(x' & y' & v & E & _)]; discriminate.
  - split; auto.
Qed.
Lemma null_ok_spec : forall o e f, null_ok o e f = true <->
  match c_null o with NStrict => f = e | NOneWay => f = true -> e = true | NIgnore => True end.
Proof. intros o e f. unfold null_ok. destruct (c_null o), e, f; cbn; intuition congruence. Qed.
Lemma guard_spec : forall (b : bool) (x : bool) (P : Prop), (x = true <-> P) -> (negb b || x = true <-> (b = true -> P)).
Proof. intros [|] x P H; cbn; [rewrite H; tauto|intuition congruence]. Qed.
Lemma own_eqb_spec : forall o e f, NoDup (map fst (a_meta e)) -> NoDup (map fst (a_meta f)) -> (own_eqb o e f = true <-> same_own o e f).
Proof.
  intros o e f De Df. unfold own_eqb, same_own. rewrite !andb_true_iff, !String.eqb_eq, null_ok_spec.
  rewrite (guard_spec _ _ _ (Z.eqb_eq _ _)), (guard_spec _ _ _ (odict_eqb_spec _ _)), (guard_spec _ _ _ (map_eqb_spec _ _ Df De)). tauto.
Qed.
Lemma if_nil : forall {A} (b : bool) (x : A), (if b then [] else [x]) = [] <-> b = true.
Proof. intros A [|] x; split; congruence. Qed.
Lemma if_nil' : forall {A} (b c : bool) (x : A), (if b && negb c then [x] else []) = [] <-> negb b || c = true.
Proof. intros A [|] [|] x; cbn; split; congruence. Qed.
Lemma app_nil_iff : forall {A} (l m : list A), l ++ m = [] <-> l = [] /\ m = [].
Proof. intros A [|] m; cbn; split; [auto|intros [_ H]; exact H|discriminate|intros [H _]; discriminate]. Qed.
Lemma own_diffs_spec : forall o e f, own_diffs o e f = [] <-> own_eqb o e f = true.
Proof.
  intros o e f. unfold own_diffs, own_eqb. rewrite !app_nil_iff, !if_nil, !if_nil', !andb_true_iff. tauto.
Qed.

(* ---- names and positions ---- *)
Lemma memS_In : forall n l, memS n l = true <-> In n l.
Proof.
  intros n l. unfold memS. rewrite existsb_exists. split; [intros [x [J E]]; apply String.eqb_eq in E; subst; exact J|].
  intros J. exists n. split; [exact J|apply String.eqb_refl].
Qed.
Lemma nth_name : forall fs i j (y y' : rfield), NoDup (map r_name fs) -> nth_error fs i = Some y -> nth_error fs j = Some y' -> r_name y = r_name y' -> i = j /\ y = y'.
Proof.
  intros fs i j y y' D Hi Hj E. assert (i = j) as ->.
  { apply (NoDup_nth_error (map r_name fs)); [exact D|rewrite map_length; apply nth_error_Some; congruence|].
    rewrite !nth_error_map, Hi, Hj. cbn. congruence. }
  split; [reflexivity|congruence].
Qed.
Lemma in_name : forall fs (y y' : rfield), NoDup (map r_name fs) -> In y fs -> In y' fs -> r_name y = r_name y' -> y = y'.
Proof. intros fs y y' D H H' E. apply In_nth_error in H as [i Hi]. apply In_nth_error in H' as [j Hj]. eapply nth_name; eassumption. Qed.
Lemma lookup_last_some : forall n fs k y p, NoDup (map r_name fs) ->
  (lookup_last n fs k = Some (y, p) <-> exists i, p = k + i /\ nth_error fs i = Some y /\ r_name y = n).
Proof.
  intros n fs. induction fs as [|f t IH]; intros k y p D; cbn [lookup_last].
  - split; [discriminate|]. intros (i & _ & H & _). destruct i; discriminate.
  - inversion D as [|? ? Nf D']; subst.
    assert (T : lookup_last n t (S k) = Some (y, p) <-> exists i, p = k + S i /\ nth_error t i = Some y /\ r_name y = n).
    { rewrite IH by exact D'. split; intros (i & Hp & H); exists i; (split; [lia|exact H]). }
    destruct (lookup_last n t (S k)) as [[z q]|] eqn:L.
    + split.
      * intros H. apply T in H as (i & Hp & H). exists (S i). auto.
      * intros (i & Hp & H & Hn). destruct i as [|i].
        -- cbn in H. injection H as ->. exfalso. apply IH in L as (j & _ & J & Jn); [|exact D'].
           apply Nf. rewrite Hn, <- Jn. apply in_map. eapply nth_error_In; eassumption.
        -- apply T. exists i. auto.
    + destruct (String.eqb_spec (r_name f) n) as [E|E].
      * split; [intros [= <- <-]; exists 0; cbn; auto|]. intros (i & Hp & H & Hn). destruct i as [|i].
        -- cbn in H. injection H as ->. do 2 f_equal. lia.
        -- assert (X : None = Some (y, p)) by (apply T; exists i; auto). discriminate.
      * split; [discriminate|]. intros (i & Hp & H & Hn). destruct i as [|i]; [cbn in H; congruence|]. apply T. exists i. auto.
Qed.
Lemma lookup_last_none : forall n fs k, lookup_last n fs k = None <-> forall y, In y fs -> r_name y <> n.
Proof.
  intros n fs. induction fs as [|f t IH]; intros k; cbn [lookup_last].
  - split; [intros _ y []|reflexivity].
  - specialize (IH (S k)). destruct (lookup_last n t (S k)) as [[z q]|].
    + split; [discriminate|]. intros H. assert (X : Some (z, q) = None) by (apply IH; intros y J; apply H; right; exact J). discriminate.
    + destruct (String.eqb_spec (r_name f) n) as [E|E].
      * split; [discriminate|]. intros H. exfalso. apply (H f); [left; reflexivity|exact E].
      * split; [|reflexivity]. intros _ y [<-|J]; [exact E|]. apply IH; [reflexivity|exact J].
Qed.
Lemma position_some : forall n fs p, NoDup (map r_name fs) -> (position n fs = Some p <-> exists y, nth_error fs p = Some y /\ r_name y = n).
Proof.
  intros n fs. induction fs as [|f t IH]; intros p D; cbn [position].
  - split; [discriminate|]. intros (y & H & _). destruct p; discriminate.
  - inversion D as [|? ? Nf D']; subst. destruct (String.eqb_spec n (r_name f)) as [E|E].
    + split; [intros [= <-]; exists f; cbn; auto|]. intros (y & H & Hn). destruct p as [|p]; [reflexivity|]. cbn in H.
      exfalso. apply Nf. rewrite <- E, <- Hn. apply in_map. eapply nth_error_In; eassumption.
    + destruct p as [|p].
      * cbn [nth_error]. split; [destruct (position n t); discriminate|]. intros (y & [= <-] & Hn). congruence.
      * cbn [nth_error]. rewrite <- (IH p D'). destruct (position n t) as [q|]; cbn; split; intros [= ->] || intros; congruence.
Qed.
Lemma position_none : forall n fs, position n fs = None <-> forall y, In y fs -> r_name y <> n.
Proof.
  intros n fs. induction fs as [|f t IH]; cbn [position].
  - split; [intros _ y []|reflexivity].
  - destruct (String.eqb_spec n (r_name f)) as [E|E].
    + split; [discriminate|]. intros H. exfalso. apply (H f); [left; reflexivity|congruence].
    + destruct (position n t) as [q|]; cbn.
      * split; [discriminate|]. intros H. assert (X : Some q = None) by (apply IH; intros y J; apply H; right; exact J). discriminate.
      * split; [|reflexivity]. intros _ y [<-|J]; [congruence|]. apply IH; [reflexivity|exact J].
Qed.

(* ---- order ---- *)
Lemma descends_sorted : forall l, descends l = false <-> Sorted le l.
Proof.
  induction l as [|x t IH]; [split; [constructor|reflexivity]|]. destruct t as [|y t].
  - split; [repeat constructor|reflexivity].
  - change (descends (x :: y :: t)) with ((y <? x) || descends (y :: t)). rewrite orb_false_iff, IH, Nat.ltb_ge. split.
    + intros [L S]. constructor; [exact S|constructor; exact L].
    + intros S. inversion S as [|? ? S' L]; subst. inversion L; subst. auto.
Qed.
Lemma sorted_strong : forall l, Sorted le l <-> StronglySorted le l.
Proof. intros l. split; [apply Sorted_StronglySorted; intros a b c; apply Nat.le_trans|apply StronglySorted_Sorted]. Qed.
Definition in_order (es fs : list rfield) : Prop :=
  forall x x' y y', before es x x' -> In y fs -> In y' fs -> r_name y = r_name x -> r_name y' = r_name x' -> before fs y y'.
Lemma before_cons : forall {A} (a : A) l x y, before l x y -> before (a :: l) x y.
Proof. intros A a l x y (i & j & L & Hi & Hj). exists (S i), (S j). cbn. repeat split; auto; lia. Qed.
Lemma positions_in : forall fs es q, In q (positions fs es) <-> exists x, In x es /\ position (r_name x) fs = Some q.
Proof.
  intros fs es q. unfold positions. rewrite in_flat_map. split; intros [x [J H]]; exists x; (split; [exact J|]).
  - destruct (position (r_name x) fs); [destruct H as [<-|[]]; reflexivity|contradiction].
  - rewrite H. left. reflexivity.
Qed.
Lemma order_spec : forall fs es, NoDup (map r_name fs) -> NoDup (map r_name es) -> (descends (positions fs es) = false <-> in_order es fs).
Proof.
  intros fs es D De. rewrite descends_sorted, sorted_strong. induction es as [|x t IH].
  - split; [|constructor]. intros _ x x' y y' (i & j & _ & H & _). destruct i; discriminate.
  - inversion De as [|? ? Nx De']; subst. specialize (IH De'). cbn [positions flat_map]. fold (positions fs t).
    assert (Head : forall p, position (r_name x) fs = Some p ->
             (StronglySorted le (p :: positions fs t) <-> in_order (x :: t) fs)).
    { intros p P. apply position_some in P as (y & Hy & Hn); [|exact D]. split.
      - intros S. inversion S as [|? ? S' F]; subst. intros x1 x2 y1 y2 (i & j & L & Hi & Hj) J1 J2 E1 E2.
        destruct i as [|i].
        + cbn in Hi. injection Hi as <-. destruct j as [|j]; [lia|]. cbn in Hj.
          apply In_nth_error in J2 as [q Hq]. rewrite Forall_forall in F.
          assert (Q : In q (positions fs t)).
          { apply positions_in. exists x2. split; [eapply nth_error_In; eassumption|]. apply position_some; eauto. }
          specialize (F _ Q). exists p, q.
          assert (y1 = y) as -> by (apply (in_name fs); [exact D|exact J1|eapply nth_error_In; eassumption|congruence]).
          repeat split; auto. destruct (Nat.eq_dec p q) as [->|]; [|lia]. exfalso. apply Nx.
          assert (y2 = y) as -> by congruence. rewrite <- Hn, E2. apply in_map. eapply nth_error_In; eassumption.
        + destruct j as [|j]; [lia|]. apply IH in S'. apply (S' x1 x2); auto. exists i, j. cbn in Hi, Hj. repeat split; auto; lia.
      - intros O. constructor.
        + apply IH. intros x1 x2 y1 y2 B. apply (O x1 x2). apply before_cons. exact B.
        + apply Forall_forall. intros q Q. apply positions_in in Q as (x2 & J2 & P2). apply position_some in P2 as (y2 & Hq & Hn2); [|exact D].
          apply In_nth_error in J2 as [j Hj].
          destruct (O x x2 y y2) as (i' & j' & L & Hi' & Hj'); [exists 0, (S j); cbn; repeat split; auto; lia|eapply nth_error_In; eassumption|eapply nth_error_In; eassumption|exact Hn|exact Hn2|].
          destruct (nth_name fs i' p _ _ D Hi' Hy eq_refl) as [-> _]. destruct (nth_name fs j' q _ _ D Hj' Hq eq_refl) as [-> _]. lia. }
    destruct (position (r_name x) fs) as [p|] eqn:P.
    + cbn [app]. apply Head. reflexivity.
    + cbn [app]. rewrite IH. assert (P' := proj1 (position_none _ _) P). split.
      * intros O x1 x2 y1 y2 (i & j & L & Hi & Hj) J1 J2 E1 E2. destruct j as [|j]; [lia|]. destruct i as [|i].
        -- cbn in Hi. injection Hi as <-. exfalso. exact (P' _ J1 E1).
        -- apply (O x1 x2); auto. exists i, j. cbn in Hi, Hj. repeat split; auto; lia.
      * intros O x1 x2 y1 y2 B. apply (O x1 x2). apply before_cons. exact B.
Qed.

(* ---- one level ---- *)
Lemma cmp_go_spec : forall o fs es cum, NoDup (map r_name fs) ->
  (cmp_go o fs es cum = true <->
   (forall x, In x es -> match position (r_name x) fs with
                         | Some p => cmp_f o x (nth p fs dummy) = true
                         | None => c_missing o = true /\ a_null (r_attrs x) = true
                         end) /\
   (c_order o = false -> descends (cum :: positions fs es) = false)).
Proof.
  intros o fs es. induction es as [|x t IH]; intros cum D; cbn [cmp_go positions flat_map].
  - split; [|reflexivity]. intros _. split; [intros x []|reflexivity].
  - fold (positions fs t). destruct (lookup_last (r_name x) fs 0) as [[y p]|] eqn:L.
    + apply lookup_last_some in L as (i & -> & Hy & Hn); [|exact D]. cbn [plus].
      assert (P : position (r_name x) fs = Some i) by (apply position_some; eauto).
      rewrite P, !andb_true_iff, (IH i D). cbn [app].
      change (descends (cum :: i :: positions fs t)) with ((i <? cum) || descends (i :: positions fs t)).
      assert (Y : nth i fs dummy = y) by (apply nth_error_nth; exact Hy). split.
      * intros [[C O] [F G]]. split.
        -- intros z [<-|J]; [rewrite P, Y; exact C|apply F; exact J].
        -- intros E. rewrite E in O. cbn [orb] in O. apply negb_true_iff in O. rewrite O. apply G, E.
      * intros [F G]. split; [split|split].
        -- specialize (F x (or_introl eq_refl)). rewrite P, Y in F. exact F.
        -- destruct (c_order o); [reflexivity|]. specialize (G eq_refl). apply orb_false_iff in G as [-> _]. reflexivity.
        -- intros z J. apply F. right. exact J.
        -- intros E. specialize (G E). apply orb_false_iff in G as [_ G]. exact G.
    + assert (P : position (r_name x) fs = None) by (apply position_none; exact (proj1 (lookup_last_none _ _ _) L)).
      rewrite P, !andb_true_iff, (IH cum D). cbn [app]. split.
      * intros [C [F G]]. split; [|exact G]. intros z [<-|J]; [rewrite P; exact C|apply F; exact J].
      * intros [F G]. split; [specialize (F x (or_introl eq_refl)); rewrite P in F; exact F|]. split; [|exact G]. intros z J. apply F. right. exact J.
Qed.
Lemma descends_zero : forall l, descends (0 :: l) = descends l.
Proof. intros [|x l]; reflexivity. Qed.
(* the condition on the fields that are there or missing, by positions *)
Lemma there_spec : forall o (R : rfield -> rfield -> Prop) fs es, NoDup (map r_name fs) ->
  ((forall x, In x es -> match position (r_name x) fs with
                         | Some p => R x (nth p fs dummy)
                         | None => c_missing o = true /\ a_null (r_attrs x) = true
                         end) <->
   (forall x, In x es -> (exists y, In y fs /\ r_name y = r_name x /\ R x y) \/
                         ((forall y, In y fs -> r_name y <> r_name x) /\ c_missing o = true /\ a_null (r_attrs x) = true))).
Proof.
  intros o R fs es D. split; intros H x J; specialize (H x J).
  - destruct (position (r_name x) fs) as [p|] eqn:P.
    + left. apply position_some in P as (y & Hy & Hn); [|exact D]. exists y. rewrite (nth_error_nth _ _ dummy Hy) in H.
      repeat split; auto. eapply nth_error_In; eassumption.
    + right. split; [apply position_none; exact P|exact H].
  - destruct H as [(y & Jy & Hn & Hr)|[N H]].
    + apply In_nth_error in Jy as [i Hi]. assert (P : position (r_name x) fs = Some i) by (apply position_some; eauto).
      rewrite P, (nth_error_nth _ _ dummy Hi). exact Hr.
    + apply position_none in N. rewrite N. exact H.
Qed.
Lemma names_spec : forall fs es, forallb (fun x => memS (r_name x) (map r_name es)) fs = true <->
  (forall y, In y fs -> exists x, In x es /\ r_name x = r_name y).
Proof.
  intros fs es. rewrite forallb_forall. split; intros H y J; specialize (H y J).
  - apply memS_In in H. apply in_map_iff in H as (x & E & X). eauto.
  - apply memS_In. destruct H as (x & X & E). rewrite <- E. apply in_map. exact X.
Qed.
Lemma zip_spec : forall o es fs, (List.length fs =? List.length es) && cmp_zip o es fs = true <-> Forall2 (fun x y => cmp_f o x y = true) es fs.
Proof.
  intros o. induction es as [|x t IH]; intros [|y u]; cbn [List.length Nat.eqb cmp_zip andb].
  - split; [constructor|reflexivity].
  - split; [discriminate|intros H; inversion H].
  - split; [discriminate|intros H; inversion H].
  - split.
    + intros H. apply andb_true_iff in H as [L H]. apply andb_true_iff in H as [C Z]. constructor; [exact C|]. apply IH. rewrite L, Z. reflexivity.
    + intros H. inversion H as [|? ? ? ? C F]; subst. apply IH in F. apply andb_true_iff in F as [-> ->]. rewrite C. reflexivity.
Qed.
Lemma before_tail : forall {A} (a : A) l x y, ~ In a l -> In x l -> before (a :: l) x y -> before l x y.
Proof.
  intros A a l x y N J (i & j & L & Hi & Hj). destruct i as [|i]; [cbn in Hi; injection Hi as <-; contradiction|].
  destruct j as [|j]; [lia|]. exists i, j. cbn in Hi, Hj. repeat split; auto; lia.
Qed.
(* with nothing missing and the order kept the two lists go together *)
Lemma forall2_covers : forall o (R : rfield -> rfield -> Prop), (forall x y, R x y -> r_name y = r_name x) -> c_missing o = false -> c_order o = false ->
  forall es fs, NoDup (map r_name es) -> NoDup (map r_name fs) -> (Forall2 R es fs <-> covers o R es fs).
Proof.
  intros o R HR M O. induction es as [|x t IH]; intros fs De Df.
  - split.
    + intros H. inversion H; subst. split; [intros y []|split; [intros x []|]]. intros _ x x' y y' _ [].
    + intros (H & _ & _). destruct fs as [|y u]; [constructor|]. destruct (H y (or_introl eq_refl)) as (x & [] & _).
  - inversion De as [|? ? Nx De']; subst. split.
    + intros H. inversion H as [|? y ? u Hxy F]; subst. inversion Df as [|? ? Ny Df']; subst.
      pose proof (HR _ _ Hxy) as E. pose proof (proj1 (IH u De' Df') F) as (C1 & C2 & C3).
      split; [|split].
      * intros z [<-|J]; [exists x; cbn; auto|]. destruct (C1 z J) as (w & W & Ew). exists w. cbn. auto.
      * intros z [<-|J]; [left; exists y; cbn; auto|]. destruct (C2 z J) as [(w & W & Hw)|[_ [K _]]]; [left; exists w; cbn; auto|congruence].
      * intros _ x1 x2 y1 y2 (i & j & L & Hi & Hj) J1 J2 E1 E2.
        assert (T : forall w v, In w (y :: u) -> In v t -> r_name w = r_name v -> In w u).
        { intros w v [<-|W] V Ev; [|exact W]. exfalso. apply Nx. rewrite <- E, Ev. apply in_map. exact V. }
        destruct j as [|j]; [lia|]. cbn in Hj. apply nth_error_In in Hj as Vj. pose proof (T _ _ J2 Vj E2) as U2. destruct i as [|i].
        -- cbn in Hi. injection Hi as <-. assert (y1 = y) as -> by (apply (in_name (y :: u)); [exact Df|exact J1|left; reflexivity|congruence]).
           apply In_nth_error in U2 as [k Hk]. exists 0, (S k). cbn. repeat split; auto; lia.
        -- cbn in Hi. apply nth_error_In in Hi as Vi. pose proof (T _ _ J1 Vi E1) as U1. apply before_cons. apply (C3 O x1 x2); auto.
           exists i, j. repeat split; auto; lia.
    + intros (C1 & C2 & C3). destruct (C2 x (or_introl eq_refl)) as [(y & Jy & Ey & Hr)|[_ [K _]]]; [|congruence].
      destruct fs as [|y0 u]; [destruct Jy|]. inversion Df as [|? ? Ny Df']; subst.
      assert (y0 = y) as ->.
      { destruct (C1 y0 (or_introl eq_refl)) as (x' & J' & E'). destruct J' as [<-|J'].
        - apply (in_name (y0 :: u)); [exact Df|left; reflexivity|exact Jy|congruence].
        - exfalso. apply In_nth_error in J' as [j Hj].
          destruct (C3 O x x' y y0) as (a & b & L & Ha & Hb); [exists 0, (S j); cbn; repeat split; auto; lia|exact Jy|left; reflexivity|exact Ey|congruence|].
          destruct (nth_name (y0 :: u) b 0 y0 y0 Df Hb eq_refl eq_refl) as [-> _]. lia. }
      constructor; [exact Hr|]. apply IH; [exact De'|exact Df'|].
      assert (T : forall v w, In v t -> In w (y :: u) -> r_name w = r_name v -> In w u).
      { intros v w V [<-|W] E; [|exact W]. exfalso. apply Nx. rewrite <- Ey, E. apply in_map. exact V. }
      split; [|split].
      * intros z J. destruct (C1 z (or_intror J)) as (w & [<-|W] & E); [|exists w; auto]. exfalso. apply Ny. rewrite Ey, E. apply in_map. exact J.
      * intros z J. destruct (C2 z (or_intror J)) as [(w & W & E & Hw)|[_ [K _]]]; [|congruence]. left. exists w. split; [apply (T z); auto|auto].
      * intros _ x1 x2 y1 y2 B J1 J2 E1 E2.
        assert (Nu : ~ In y u) by (intros J; apply Ny, in_map; exact J).
        apply (before_tail y); [exact Nu|exact J1|]. apply (C3 O x1 x2); [apply before_cons; exact B|right; exact J1|right; exact J2|exact E1|exact E2].
Qed.
Lemma cmp_name : forall o x y, cmp_f o x y = true -> r_name y = r_name x.
Proof.
  intros o [ae ce] y H. cbn [cmp_f] in H. apply andb_true_iff in H as [H _]. unfold own_eqb in H. rewrite !andb_true_iff in H.
  destruct H as [[[[[H _] _] _] _] _]. apply String.eqb_eq in H. exact H.
Qed.
Theorem compare_fields_spec : forall o fs es, NoDup (map r_name fs) -> NoDup (map r_name es) ->
  (compare_fields o fs es = true <-> covers o (fun x y => cmp_f o x y = true) es fs).
Proof.
  intros o fs es Df De. unfold compare_fields. destruct (c_missing o || c_order o) eqn:S.
  - rewrite andb_true_iff, names_spec, (cmp_go_spec o fs es 0 Df), descends_zero.
    rewrite (there_spec o (fun x y => cmp_f o x y = true) fs es Df). unfold covers.
    rewrite (order_spec fs es Df De). reflexivity.
  - apply orb_false_iff in S as [M O]. rewrite zip_spec. apply forall2_covers; auto. intros x y. apply cmp_name.
Qed.
Lemma missing_spec : forall o fs es, NoDup (map r_name es) ->
  (missing_names o fs es = [] <-> forall x, In x es -> position (r_name x) fs = None -> c_missing o = true /\ a_null (r_attrs x) = true).
Proof.
  intros o fs es De. unfold missing_names.
  assert (F : forall x, In x es -> find (fun e => String.eqb (r_name e) (r_name x)) es = Some x).
  { intros x J. destruct (find (fun e => String.eqb (r_name e) (r_name x)) es) as [z|] eqn:Q.
    - apply find_some in Q as [Z E]. apply String.eqb_eq in E. f_equal. apply (in_name es); auto.
    - apply (find_none _ _ Q) in J. rewrite String.eqb_refl in J. discriminate. }
  assert (K : forall (p : string -> bool) l, filter p l = [] <-> forall n, In n l -> p n = false).
  { intros p l. induction l as [|a l IH]; cbn [filter]; [split; [intros _ n []|reflexivity]|]. destruct (p a) eqn:P.
    - split; [discriminate|]. intros H. rewrite (H a (or_introl eq_refl)) in P. discriminate.
    - rewrite IH. split; [intros H n [<-|J]; [exact P|apply H; exact J]|intros H n J; apply H; right; exact J]. }
  assert (M : forall n, memS n (map r_name fs) = false <-> position n fs = None).
  { intros n. rewrite position_none. rewrite <- not_true_iff_false, memS_In, in_map_iff. split.
    - intros H y J E. apply H. eauto.
    - intros H (y & E & J). exact (H y J E). }
  rewrite K. split.
  - intros H x J P. specialize (H _ (in_map r_name _ _ J)). rewrite (proj2 (M _) P), (F x J) in H. cbn [negb andb] in H.
    destruct (c_missing o); [|discriminate]. apply negb_false_iff in H. auto.
  - intros H n Jn. apply in_map_iff in Jn as (x & <- & J). destruct (memS (r_name x) (map r_name fs)) eqn:Q; [reflexivity|].
    apply M in Q. destruct (H x J Q) as [-> A]. rewrite (F x J), A. reflexivity.
Qed.
Lemma unexpected_spec : forall fs es, unexpected_names fs es = [] <-> (forall y, In y fs -> exists x, In x es /\ r_name x = r_name y).
Proof.
  intros fs es. rewrite <- names_spec. unfold unexpected_names. induction fs as [|f t IH]; cbn [map filter forallb]; [split; reflexivity|].
  destruct (memS (r_name f) (map r_name es)); cbn [negb andb]; [exact IH|split; discriminate].
Qed.
Lemma flat_map_nil : forall {A B} (f : A -> list B) l, flat_map f l = [] <-> forall x, In x l -> f x = [].
Proof.
  intros A B f l. induction l as [|a l IH]; cbn [flat_map].
  - split; [intros _ x []|reflexivity].
  - rewrite app_nil_iff, IH. split; [intros [H G] x [<-|J]; [exact H|apply G; exact J]|intros H; split; [apply H; left; reflexivity|intros x J; apply H; right; exact J]].
Qed.
Theorem explain_fields_spec : forall o fs es, NoDup (map r_name fs) -> NoDup (map r_name es) ->
  (explain_fields o fs es = [] <-> covers o (fun x y => explain_f o x y = []) es fs).
Proof.
  intros o fs es Df De. unfold explain_fields, set_diffs. rewrite !app_nil_iff, flat_map_nil.
  assert (A : match missing_names o fs es, unexpected_names fs es with [], [] => [] | m, u => [DFields m u] end = [] <->
              missing_names o fs es = [] /\ unexpected_names fs es = []).
  { destruct (missing_names o fs es), (unexpected_names fs es); split; intros H; try discriminate; auto; destruct H; discriminate. }
  rewrite A, (missing_spec o fs es De), unexpected_spec. clear A.
  assert (B : (if negb (c_order o) && descends (positions fs es) then [DOrder] else []) = [] <-> (c_order o = false -> in_order es fs)).
  { rewrite <- (order_spec fs es Df De). destruct (c_order o), (descends (positions fs es)); cbn; intuition congruence. }
  rewrite B. clear B. unfold covers. fold (in_order es fs).
  rewrite <- (there_spec o (fun x y => explain_f o x y = []) fs es Df). split.
  - intros [[[M U] O] F]. split; [exact U|]. split; [|exact O]. intros x J. specialize (M x J). specialize (F x J).
    destruct (position (r_name x) fs) as [p|]; [|apply M; reflexivity]. destruct (explain_f o x (nth p fs dummy)); [reflexivity|discriminate].
  - intros (U & F & O). split; [split; [split; [|exact U]|exact O]|]; intros x J; specialize (F x J); destruct (position (r_name x) fs) as [p|].
    + discriminate.
    + intros _. exact F.
    + rewrite F. reflexivity.
    + reflexivity.
Qed.

(* ---- all levels ---- *)
Lemma cmp_f_eq : forall o ae ce f, cmp_f o (RF ae ce) f = own_eqb o ae (r_attrs f) && compare_fields o (r_children f) ce.
Proof.
  intros o ae ce f. cbn [cmp_f]. unfold compare_fields. f_equal. destruct (c_missing o || c_order o).
  - f_equal. generalize 0 at 2 3. induction ce as [|x t IH]; intros k; cbn [cmp_go]; [reflexivity|].
    destruct (lookup_last (r_name x) (r_children f) 0) as [[y p]|]; rewrite IH; reflexivity.
  - f_equal. generalize (r_children f). induction ce as [|x t IH]; intros [|y u]; cbn [cmp_zip]; try reflexivity. rewrite IH. reflexivity.
Qed.
Lemma explain_f_eq : forall o ae ce f, explain_f o (RF ae ce) f =
  own_diffs o ae (r_attrs f) ++ match explain_fields o (r_children f) ce with [] => [] | l => [DChildren l] end.
Proof. reflexivity. Qed.
Lemma covers_ext : forall o (R Q : rfield -> rfield -> Prop) es fs, (forall x y, In x es -> In y fs -> (R x y <-> Q x y)) -> (covers o R es fs <-> covers o Q es fs).
Proof.
  intros o R Q es fs H. unfold covers. split; intros (A & B & C); (split; [exact A|split; [|exact C]]);
    intros x J; (destruct (B x J) as [(y & Y & E & K)|K]; [left; exists y; repeat split; auto; apply H; auto|right; exact K]).
Qed.
Lemma compatible_iff : forall o ae ce f, compatible o (RF ae ce) f <-> same_own o ae (r_attrs f) /\ covers o (compatible o) ce (r_children f).
Proof. intros o ae ce [af cf]. split; [intros H; inversion H; subst; auto|intros [A B]; constructor; assumption]. Qed.
Lemma tidy_iff : forall f, tidy f <-> NoDup (map r_name (r_children f)) /\ NoDup (map fst (a_meta (r_attrs f))) /\ Forall tidy (r_children f).
Proof. intros [a c]. split; [intros H; inversion H; subst; auto|intros (A & B & C); constructor; assumption]. Qed.
Theorem cmp_f_spec : forall o e f, tidy e -> tidy f -> (cmp_f o e f = true <-> compatible o e f).
Proof.
  intros o. induction e as [ae ce IH] using rfield_ind'. intros f Te Tf. rewrite cmp_f_eq, compatible_iff, andb_true_iff.
  apply tidy_iff in Te as (De & Me & Fe). apply tidy_iff in Tf as (Df & Mf & Ff). cbn [r_children r_attrs] in *.
  rewrite (own_eqb_spec o ae _ Me Mf), (compare_fields_spec o _ ce Df De).
  rewrite (covers_ext o (fun x y => cmp_f o x y = true) (compatible o)); [reflexivity|].
  intros x y X Y. rewrite Forall_forall in IH, Fe, Ff. apply IH; auto.
Qed.
Theorem explain_f_spec : forall o e f, tidy e -> tidy f -> (explain_f o e f = [] <-> compatible o e f).
Proof.
  intros o. induction e as [ae ce IH] using rfield_ind'. intros f Te Tf. rewrite explain_f_eq, compatible_iff, app_nil_iff.
  apply tidy_iff in Te as (De & Me & Fe). apply tidy_iff in Tf as (Df & Mf & Ff). cbn [r_children r_attrs] in *.
  rewrite own_diffs_spec, (own_eqb_spec o ae _ Me Mf).
  assert (E : match explain_fields o (r_children f) ce with [] => [] | l => [DChildren l] end = [] <-> explain_fields o (r_children f) ce = []).
  { destruct (explain_fields o (r_children f) ce); split; congruence. }
  rewrite E, (explain_fields_spec o _ ce Df De).
  rewrite (covers_ext o (fun x y => explain_f o x y = []) (compatible o)); [reflexivity|].
  intros x y X Y. rewrite Forall_forall in IH, Fe, Ff. apply IH; auto.
Qed.

(* a schema is accepted exactly when it is compatible *)
Theorem compare_exact : forall o s e, tidy_schema s -> tidy_schema e -> (compare_schemas o s e = true <-> compatible_schemas o s e).
Proof.
  intros o s e (Ds & Ms & Fs) (De & Me & Fe). unfold compare_schemas, compatible_schemas.
  rewrite andb_true_iff, (guard_spec _ _ _ (map_eqb_spec _ _ Ms Me)), (compare_fields_spec o _ _ Ds De).
  rewrite (covers_ext o (fun x y => cmp_f o x y = true) (compatible o)); [reflexivity|].
  intros x y X Y. rewrite Forall_forall in Fs, Fe. apply cmp_f_spec; auto.
Qed.
(* and a difference is reported exactly when it is not *)
Theorem explain_exact : forall o s e, tidy_schema s -> tidy_schema e -> (explain_difference o s e = None <-> compatible_schemas o s e).
Proof.
  intros o s e (Ds & Ms & Fs) (De & Me & Fe). unfold explain_difference, compatible_schemas.
  rewrite <- (guard_spec _ _ _ (map_eqb_spec _ _ Ms Me)), <- (@if_nil' diff (c_meta o) (map_eqb (rs_meta s) (rs_meta e)) DMeta).
  rewrite <- (covers_ext o (fun x y => explain_f o x y = []) (compatible o)); [|intros x y X Y; rewrite Forall_forall in Fs, Fe; apply explain_f_spec; auto].
  rewrite <- (explain_fields_spec o _ _ Ds De), <- app_nil_iff.
  destruct (explain_fields o (rs_fields s) (rs_fields e) ++ _); split; congruence.
Qed.
Theorem check_exact : forall o s e, tidy_schema s -> tidy_schema e ->
  (compatible_schemas o s e /\ check_compatible o s e = Compatible) \/
  (~ compatible_schemas o s e /\ exists l, l <> [] /\ check_compatible o s e = Mismatch l).
Proof.
  intros o s e Ts Te. unfold check_compatible. pose proof (compare_exact o s e Ts Te) as C. pose proof (explain_exact o s e Ts Te) as X.
  destruct (compare_schemas o s e).
  - left. split; [apply C; reflexivity|reflexivity].
  - right. assert (N : ~ compatible_schemas o s e) by (rewrite <- C; discriminate). split; [exact N|].
    destruct (explain_difference o s e) as [l|] eqn:E; [|destruct N; apply X; reflexivity].
    exists l. split; [|reflexivity]. unfold explain_difference in E. destruct (explain_fields o (rs_fields s) (rs_fields e) ++ _); [discriminate|]. congruence.
Qed.
(* a schema is compatible with itself, if its dictionaries are known *)
Inductive dicts_known : rfield -> Prop :=
| dk_intro : forall a c, (forall d, a_dict a = Some d -> di_values d <> None) -> Forall dicts_known c -> dicts_known (RF a c).
Lemma covers_refl : forall o (R : rfield -> rfield -> Prop) l, NoDup (map r_name l) -> (forall x, In x l -> R x x) -> covers o R l l.
Proof.
  intros o R l D H. split; [|split].
  - intros y J. eauto.
  - intros x J. left. eauto.
  - intros _ x x' y y' B J J' E E'. assert (B' := B). destruct B' as (i & j & L & Hi & Hj).
    assert (y = x) as -> by (apply (in_name l); auto; eapply nth_error_In; eassumption).
    assert (y' = x') as -> by (apply (in_name l); auto; eapply nth_error_In; eassumption). exact B.
Qed.
Lemma compatible_refl : forall o f, tidy f -> (c_dict o = true -> dicts_known f) -> compatible o f f.
Proof.
  intros o. induction f as [a c IH] using rfield_ind'. intros T K. constructor.
  - unfold same_own. repeat split; auto; [destruct (c_null o); auto|].
    intros E. specialize (K E). inversion K as [? ? Kd _]; subst. unfold same_dict. destruct (a_dict a) as [d|]; [|auto].
    right. destruct (di_values d) as [v|] eqn:V; [exists d, d, v; auto|]. exfalso. exact (Kd d eq_refl V).
  - inversion T as [? ? D _ F]; subst. apply covers_refl; [exact D|]. intros x J. rewrite Forall_forall in IH, F. apply IH; auto.
    intros E. specialize (K E). inversion K as [? ? _ Kc]; subst. rewrite Forall_forall in Kc. auto.
Qed.
Theorem compare_refl : forall o s, tidy_schema s -> (c_dict o = true -> Forall dicts_known (rs_fields s)) -> compare_schemas o s s = true.
Proof.
  intros o s T K. apply compare_exact; auto. destruct T as (D & _ & F). split; [|intros _ k; reflexivity].
  apply covers_refl; [exact D|]. intros x J. rewrite Forall_forall in F. apply compatible_refl; auto.
  intros E. specialize (K E). rewrite Forall_forall in K. auto.
Qed.

(* ---- examples and refutations ---- *)
Definition mk (n t : string) (i : Z) (null : bool) : attrs :=
  {| a_name := n; a_id := i; a_parent := -1; a_type := t; a_meta := []; a_enc := None; a_null := null; a_dict := None; a_storage := SDefault |}.
Definition append_opts : copts := {| c_meta := false; c_dict := true; c_ids := false; c_null := NIgnore; c_missing := true; c_order := true |}.
Definition strict_opts : copts := {| c_meta := true; c_dict := false; c_ids := true; c_null := NStrict; c_missing := false; c_order := false |}.
Definition ex_expected : rschema := {| rs_fields := [RF (mk "i" "int64" 0 false) []; RF (mk "s" "struct" 1 true) [RF (mk "x" "int32" 2 true) []; RF (mk "y" "string" 3 true) []]; RF (mk "v" "float" 4 true) []]; rs_meta := [] |}.
Definition ex_actual : rschema := {| rs_fields := [RF (mk "s" "struct" 0 true) [RF (mk "y" "string" 1 true) []]; RF (mk "i" "int64" 2 true) []]; rs_meta := [] |}.
Example ex_accepted : tidy_schema ex_actual /\ tidy_schema ex_expected /\ check_compatible append_opts ex_actual ex_expected = Compatible /\
  check_compatible strict_opts ex_actual ex_expected <> Compatible /\ check_compatible strict_opts ex_expected ex_expected = Compatible.
Proof.
  assert (T : forall a, a_meta a = [] -> tidy (RF a [])) by (intros a E; constructor; cbn; [constructor|rewrite E; constructor|constructor]).
  split; [|split; [|split; [|split]]].
  - split; [|split]; [|constructor|].
    + cbn. repeat (constructor; [cbn; intuition discriminate|]). constructor.
    + repeat (apply Forall_cons; [|]); try apply Forall_nil; [|apply T; reflexivity].
      constructor; [cbn; repeat (constructor; [cbn; intuition discriminate|]); constructor|constructor|].
      repeat (apply Forall_cons; [apply T; reflexivity|]). apply Forall_nil.
  - split; [|split]; [|constructor|].
    + cbn. repeat (constructor; [cbn; intuition discriminate|]). constructor.
    + apply Forall_cons; [apply T; reflexivity|]. apply Forall_cons; [|apply Forall_cons; [apply T; reflexivity|apply Forall_nil]].
      constructor; [cbn; repeat (constructor; [cbn; intuition discriminate|]); constructor|constructor|].
      repeat (apply Forall_cons; [apply T; reflexivity|]). apply Forall_nil.
  - reflexivity.
  - discriminate.
  - reflexivity.
Qed.
(* with two children of one name the check fails and cannot say why *)
Theorem unknown_reason_refuted : exists s e,
  (exists a b c d x, s = {| rs_fields := [RF a [b; b]]; rs_meta := [] |} /\ e = {| rs_fields := [RF c [d]]; rs_meta := [] |} /\ b = RF x [] /\ d = b) /\
  check_compatible strict_opts s e = UnknownReason.
Proof.
  exists {| rs_fields := [RF (mk "s" "struct" 0 true) [RF (mk "x" "int32" 1 true) []; RF (mk "x" "int32" 1 true) []]]; rs_meta := [] |},
         {| rs_fields := [RF (mk "s" "struct" 0 true) [RF (mk "x" "int32" 1 true) []]]; rs_meta := [] |}.
  split; [do 5 eexists; repeat split; reflexivity|reflexivity].
Qed.
(* a schema with a dictionary whose values were not loaded is not compatible with itself *)
Theorem self_refuted : exists s, tidy_schema s /\ exists l, check_compatible append_opts s s = Mismatch l.
Proof.
  exists {| rs_fields := [RF {| a_name := "d"; a_id := 0; a_parent := -1; a_type := "dict:string:int8:false"; a_meta := []; a_enc := None; a_null := true;
                                 a_dict := Some {| di_offset := 0; di_length := 2; di_values := None |}; a_storage := SDefault |} []]; rs_meta := [] |}.
  split; [|eexists; reflexivity]. split; [|split].
  - constructor; [intros []|constructor].
  - constructor.
  - apply Forall_cons; [|apply Forall_nil]. constructor; constructor.
Qed.
