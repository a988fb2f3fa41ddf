(* C18: a filter answered by scalar indices returns the same rows as a scan. *)
From Coq Require Import List Arith NArith ZArith Bool Lia.
From Verif Require Import Lib AMap RowIdsModel SerdeModel TreeMapModel TreeMapProofs MaskProofs ScalarModel ScalarProofs BitmapIndexProofs IndexExprModel.
Import ListNotations.

(* ---- what an index expression means on a row ---- *)
Definition asat (r : row) (c : N) (q : aquery) : Prop :=
  match q with
  | ASarg q => matches q (r_col r c)
  | ALabel q => exists l, r_list r c = Some l /\ list_matches q l
  end.
Fixpoint sat (r : row) (s : sidx) : Prop :=
  match s with
  | SNot a => ~ sat r a
  | SAnd a b => sat r a /\ sat r b
  | SOr a b => sat r a \/ sat r b
  | SQuery c q => asat r c q
  end.
(* the index of column c answers q: on the rows it covers, the result holds
   exactly the ids of the rows that satisfy q *)
Definition leaf_ok (search : N -> aquery -> option tmap) (rows : list (N * row)) (c : N) (q : aquery) : Prop :=
  exists t, search c q = Some t /\ t_wf t /\ part_only t /\
    forall id r, In (id, r) rows -> (t_contains id t = true <-> asat r c q).
Fixpoint leaves_ok (search : N -> aquery -> option tmap) (rows : list (N * row)) (s : sidx) : Prop :=
  match s with
  | SNot a => leaves_ok search rows a
  | SAnd a b | SOr a b => leaves_ok search rows a /\ leaves_ok search rows b
  | SQuery c q => leaf_ok search rows c q
  end.

(* ---- evaluation ---- *)
(* which lists the resulting mask has: Allow only, Block only, or both (Mixed);
   None: an OR or NOT that RowIdMask cannot express with these lists (C17) *)
Inductive shape := ShA | ShB | ShM.
Fixpoint shape_of (s : sidx) : option shape :=
  match s with
  | SQuery _ _ => Some ShA
  | SNot a => match shape_of a with Some ShA => Some ShB | Some ShB => Some ShA | _ => None end
  | SAnd a b => match shape_of a, shape_of b with
                | Some ShA, Some ShA => Some ShA
                | Some ShB, Some ShB => Some ShB
                | Some _, Some _ => Some ShM
                | _, _ => None
                end
  | SOr a b => match shape_of a, shape_of b with
               | Some ShA, Some ShA => Some ShA
               | Some ShB, Some ShB => Some ShB
               | _, _ => None
               end
  end.
Definition opt_good (o : option tmap) : Prop := match o with Some t => t_wf t /\ part_only t | None => True end.
Definition has_shape (sh : shape) (m : mask) : Prop :=
  match sh with
  | ShA => allow m <> None /\ block m = None
  | ShB => allow m = None /\ block m <> None
  | ShM => allow m <> None /\ block m <> None
  end.
Definition mask_good (m : mask) : Prop := opt_good (allow m) /\ opt_good (block m).

Lemma and_part : forall a b, am_wf a -> part_only a -> part_only (t_and a b).
Proof.
  intros a b W P f E. apply get_In in E. unfold t_and in E. apply filter_In in E as [E _]. apply in_map_iff in E as [[k s] [E J]].
  apply filter_In in J as [J _]. injection E as -> E. cbn [snd fst] in E. destruct s as [|s].
  - apply (P f). apply In_get; assumption.
  - unfold and_entry in E. destruct (get f b) as [[|r]|]; discriminate.
Qed.
Lemma good_wf : forall m, mask_good m -> mask_wf m.
Proof.
  assert (O : forall o, opt_good o -> opt_wf o) by (intros [t|] H; cbn in *; [exact (proj1 (proj1 H))|exact Logic.I]).
  intros m [A B]. split; apply O; assumption.
Qed.
Lemma and_good : forall a b, opt_good (Some a) -> opt_good (Some b) -> opt_good (Some (t_and a b)).
Proof. intros a b [Wa Pa] [Wb Pb]. split; [apply and_wf; assumption|apply and_part; [exact (proj1 Wa)|exact Pa]]. Qed.
Lemma or_good : forall a b, opt_good (Some a) -> opt_good (Some b) -> opt_good (Some (t_or a b)).
Proof. intros a b [Wa Pa] [Wb Pb]. split; [apply or_wf; assumption|apply or_part; [exact Pa|exact (proj1 Wb)|exact Pb]]. Qed.
Lemma both_good : forall f x y, (forall a b, opt_good (Some a) -> opt_good (Some b) -> opt_good (Some (f a b))) -> opt_good x -> opt_good y -> opt_good (both f x y).
Proof. intros f [x|] [y|] H A B; cbn [both]; auto. Qed.

Lemma bool_neg : forall b (P : Prop), (b = true <-> P) -> (negb b = true <-> ~ P).
Proof. intros [|] P [A B]; cbn; split; intros H; try discriminate; [exfalso; apply H; apply A; reflexivity|intros p; discriminate (B p)|reflexivity]. Qed.

Theorem evaluate_spec : forall search rows s sh, shape_of s = Some sh -> leaves_ok search rows s ->
  exists m, evaluate search s = Some m /\ has_shape sh m /\ mask_good m /\
    forall id r, In (id, r) rows -> (selected m id = true <-> sat r s).
Proof.
  intros search rows. induction s as [a IH|a IHa b IHb|a IHa b IHb|c q]; intros sh SH LV; cbn [shape_of evaluate leaves_ok sat] in *.
  - destruct (shape_of a) as [[| |]|]; try discriminate; injection SH as <-.
    + destruct (IH ShA eq_refl LV) as [m [E [S [G Q]]]]. exists (mask_not m). rewrite E. split; [reflexivity|]. destruct S as [S1 S2], G as [G1 G2].
      split; [|split; [split; assumption|]]. { split; assumption. }
      intros id r J. rewrite mask_not_spec by (right; auto). apply bool_neg. apply Q. exact J.
    + destruct (IH ShB eq_refl LV) as [m [E [S [G Q]]]]. exists (mask_not m). rewrite E. split; [reflexivity|]. destruct S as [S1 S2], G as [G1 G2].
      split; [|split; [split; assumption|]]. { split; assumption. }
      intros id r J. rewrite mask_not_spec by (left; auto). apply bool_neg. apply Q. exact J.
  - destruct LV as [LA LB]. destruct (shape_of a) as [sa|] eqn:Ea; [|discriminate]. destruct (shape_of b) as [sb|] eqn:Eb; [|destruct sa; discriminate].
    destruct (IHa sa eq_refl LA) as [x [Ex [Sx [Gx Qx]]]]. destruct (IHb sb eq_refl LB) as [y [Ey [Sy [Gy Qy]]]].
    exists (mask_and x y). rewrite Ex, Ey. split; [reflexivity|]. split; [|split].
    + destruct x as [[ax|] [bx|]], y as [[ay|] [by_|]]; destruct sa, sb; cbn in *; destruct Sx as [? ?], Sy as [? ?]; try congruence; injection SH as <-; cbn; split; congruence.
    + destruct Gx as [? ?], Gy as [? ?]. split; apply both_good; auto; [apply and_good|apply or_good].
    + intros id r J. rewrite mask_and_spec.
      * rewrite andb_true_iff, (Qx id r J), (Qy id r J). reflexivity.
      * apply good_wf; exact Gx.
      * apply good_wf; exact Gy.
      * unfold blocks_unitable. destruct (block x) as [bx|]; [|exact Logic.I]. destruct Gy as [_ G]. destruct (block y) as [b'|]; [|exact Logic.I]. intros k u _. apply (proj2 G).
  - destruct LV as [LA LB]. destruct (shape_of a) as [sa|] eqn:Ea; [|discriminate]. destruct (shape_of b) as [sb|] eqn:Eb; [|destruct sa; discriminate].
    destruct (IHa sa eq_refl LA) as [x [Ex [Sx [Gx Qx]]]]. destruct (IHb sb eq_refl LB) as [y [Ey [Sy [Gy Qy]]]].
    exists (mask_or x y). rewrite Ex, Ey. split; [reflexivity|].
    destruct x as [[ax|] [bx|]], y as [[ay|] [by_|]]; destruct sa, sb; cbn [has_shape allow block] in *; destruct Sx as [? ?], Sy as [? ?]; try congruence; injection SH as <-;
      destruct Gx as [Gx1 Gx2], Gy as [Gy1 Gy2]; cbn [allow block] in *.
    + split; [|split].
      * split; discriminate || reflexivity.
      * split; [apply or_good; assumption|exact Logic.I].
      * intros id r J. specialize (Qx id r J). specialize (Qy id r J). pose proof (mask_or_allow_spec ax ay id) as M. unfold from_allowed in M. rewrite M.
        -- rewrite orb_true_iff. tauto.
        -- exact (proj1 (proj1 Gy1)).
        -- intros k u _. apply (proj2 Gy1).
    + split; [|split].
      * split; discriminate || reflexivity.
      * split; [exact Logic.I|apply and_good; assumption].
      * intros id r J. specialize (Qx id r J). specialize (Qy id r J). pose proof (mask_or_block_spec bx by_ id (proj1 (proj1 Gx2))) as M. unfold from_block in M. rewrite M.
        rewrite orb_true_iff. tauto.
  - injection SH as <-. destruct LV as [t [E [W [P Q]]]]. rewrite E. exists (from_allowed t). split; [reflexivity|]. split; [split; [discriminate|reflexivity]|]. split; [split; [split; assumption|exact Logic.I]|].
    intros id r J. cbn. apply Q. exact J.
Qed.

(* ---- parsing ---- *)
(* the columns that the index information calls boolean hold booleans *)
Definition typed (f : info) (r : row) : Prop :=
  forall c i, f c = Some i -> ix_bool i = true -> r_col r c = None \/ r_col r c = Some 0%Z \/ r_col r c = Some 1%Z.
(* the filter never meets an unknown where the index path treats it as false:
   below NOT, in a negated comparison, or in a comparison of null with null *)
Fixpoint nullsafe (r : row) (e : expr) : Prop :=
  match e with
  | ENot a => nullsafe r a /\ eval r a <> None
  | EAnd a b | EOr a b => nullsafe r a /\ nullsafe r b
  | ECmp OEq a b => eval r a <> None \/ eval r b <> None
  | ECmp ONe a b => eval r a <> None /\ eval r b <> None
  | EBetween true _ _ _ => eval r e <> None
  | EIn true _ _ => eval r e <> None
  | EIn false a l => eval r a <> None \/ ~ In None (map (atom_val r) l)
  | _ => True
  end.
Definition holds (r : row) (e : expr) : Prop := vb (eval r e) = Some true.
Definition iholds (r : row) (i : iexpr) : Prop :=
  match scalar_query i with Some s => sat r s | None => True end /\ match refine_expr i with Some e => holds r e | None => True end.

Lemma vb_bv : forall b, vb (bv b) = b.
Proof. intros [[|]|]; reflexivity. Qed.
Lemma bv_none : forall b, bv b = None <-> b = None.
Proof. intros [[|]|]; cbn; split; congruence. Qed.
Lemma holds_and : forall r a b, holds r (EAnd a b) <-> holds r a /\ holds r b.
Proof.
  intros r a b. unfold holds. cbn [eval]. rewrite vb_bv. destruct (vb (eval r a)) as [[|]|], (vb (eval r b)) as [[|]|]; cbn; split; intros H; try discriminate; try (destruct H; discriminate); auto.
Qed.
Lemma holds_or : forall r a b, holds r (EOr a b) <-> holds r a \/ holds r b.
Proof.
  intros r a b. unfold holds. cbn [eval]. rewrite vb_bv. destruct (vb (eval r a)) as [[|]|], (vb (eval r b)) as [[|]|]; cbn; split; intros H; try discriminate; try (destruct H; discriminate); auto.
Qed.
Lemma holds_not : forall r a, eval r a <> None -> (holds r (ENot a) <-> ~ holds r a).
Proof.
  intros r a N. unfold holds. cbn [eval]. rewrite vb_bv. destruct (eval r a) as [z|]; [|congruence]. cbn [vb]. destruct (negb (z =? 0)%Z); cbn; split; intros H; congruence.
Qed.

Lemma in3_true : forall x l, in3 x l = Some true <-> x <> None /\ In x l.
Proof.
  intros [x|] l; cbn [in3]; [|split; [discriminate|intros [H _]; congruence]]. destruct (existsb (veq (Some x)) l) eqn:E.
  - apply existsb_exists in E as [y [J E]]. apply veq_true in E. subst y. split; [intros _; split; [discriminate|exact J]|reflexivity].
  - split; [destruct (existsb is_none l); discriminate|]. intros [_ J]. rewrite <- not_true_iff_false in E. exfalso. apply E. apply existsb_exists. exists (Some x). split; [exact J|apply veq_true; reflexivity].
Qed.

Lemma neg_eval : forall (b : option bool), b <> None -> (knot b = Some true <-> b <> Some true).
Proof. intros [[|]|] H; cbn; split; intros; congruence. Qed.

(* the query for a comparison matches the rows on which the comparison is true *)
Lemma cmp_sound : forall o v x, o <> OEq -> o <> ONe ->
  (matches (match o with OLt => QRange VUnb (VExc v) | OLe => QRange VUnb (VInc v) | OGt => QRange (VExc v) VUnb | OGe => QRange (VInc v) VUnb | OEq | ONe => QEq v end) x <-> cmpv o x v = Some true).
Proof.
  intros o v x N1 N2. destruct o; try congruence; clear N1 N2; destruct x as [x|]; destruct v as [v|]; cbn; split;
    try (intros [y [E [A B]]]; try discriminate; try contradiction); try discriminate;
    try (injection E as <-); try (intros H; injection H as H); try (exists x; split; [reflexivity|]; split; try exact Logic.I); f_equal; lia.
Qed.
Lemma between_sound : forall lo hi x, matches (QRange (VInc lo) (VInc hi)) x <-> kand (cmpv OGe x lo) (cmpv OLe x hi) = Some true.
Proof.
  intros [lo|] [hi|] [x|]; cbn; split; try (intros [y [E [A B]]]; try discriminate; try contradiction); try discriminate.
  - injection E as <-. replace (lo <=? x)%Z with true by lia. replace (x <=? hi)%Z with true by lia. reflexivity.
  - destruct (lo <=? x)%Z eqn:E1, (x <=? hi)%Z eqn:E2; try discriminate. intros _. exists x. split; [reflexivity|]. split; lia.
  - destruct (lo <=? x)%Z; discriminate.
  - destruct (x <=? hi)%Z; discriminate.
Qed.

Lemma maybe_scalar_lit : forall i e v, maybe_scalar i e = Some v -> e = ELit v.
Proof. intros i e v H. destruct e; try discriminate. cbn in H. destruct (ix_fits i v0); [injection H as ->; reflexivity|discriminate]. Qed.
Lemma indexed_col : forall f e c i, indexed_column f e = Some (c, i) -> e = ECol c /\ f c = Some i.
Proof. intros f e c i H. destruct e; try discriminate. cbn in H. destruct (f c0) eqn:E; [|discriminate]. injection H as -> ->. auto. Qed.
Lemma scalar_list_lits : forall i l vs, maybe_scalar_list i l = Some vs -> l = map ALit vs.
Proof.
  intros i. unfold maybe_scalar_list. induction l as [|a l IH]; intros vs H; cbn [map] in H.
  - injection H as <-. reflexivity.
  - rewrite sequence_opt_cons in H. destruct a as [v|n]; [|discriminate]. destruct (ix_fits i v); [|discriminate]. cbn [obind] in H.
    match type of H with context [sequence_opt ?x] => destruct (sequence_opt x) as [t|] eqn:E end; [|discriminate]. cbn in H. injection H as <-. cbn. f_equal. apply IH. reflexivity.
Qed.
Lemma maybe_not_inv : forall a i, maybe_not a = Some i ->
  (exists q, a = {| scalar_query := Some q; refine_expr := None |} /\ i = {| scalar_query := Some (SNot q); refine_expr := None |}) \/
  (exists e, a = {| scalar_query := None; refine_expr := Some e |} /\ i = {| scalar_query := None; refine_expr := Some (ENot e) |}).
Proof.
  intros [[q|] [e|]] i H; cbn in H; try discriminate; injection H as <-; [left|right]; eauto.
Qed.

(* every result of visit has an index query *)
Lemma has_query : forall f e i, visit f e = Some i -> exists q, scalar_query i = Some q.
Proof.
  assert (BT : forall f n x lo hi i, visit_between f n x lo hi = Some i -> exists q, scalar_query i = Some q).
  { intros f n x lo hi i H. unfold visit_between in H. destruct (indexed_column f x) as [[c ix]|]; [|discriminate]. cbn [obind] in H. destruct (maybe_scalar ix lo); [|discriminate]. cbn [obind] in H. destruct (maybe_scalar ix hi); [|discriminate]. cbn [obind] in H.
    unfold p_between in H. destruct (ix_parser ix); [|destruct n; discriminate]. destruct n; cbn in H; injection H as <-; eexists; reflexivity. }
  assert (CM : forall f o a b i, visit_comparison f o a b = Some i -> refine_expr i = None /\ exists q, scalar_query i = Some q).
  { intros f o a b i H. unfold visit_comparison in H. destruct (indexed_column f a) as [[c ix]|]; [|discriminate]. cbn [obind] in H. destruct (maybe_scalar ix b); [|discriminate]. cbn [obind] in H. unfold p_comparison in H. destruct (ix_parser ix); [|discriminate]. injection H as <-. split; [reflexivity|eexists; reflexivity]. }
  assert (BO : forall f a b i, visit_is_bool f a b = Some i -> exists q, scalar_query i = Some q).
  { intros f a b i H. unfold visit_is_bool in H. destruct (indexed_column f a) as [[c ix]|]; [|discriminate]. cbn [obind] in H. destruct (ix_bool ix); [|discriminate]. unfold p_is_bool in H. destruct (ix_parser ix); [|discriminate]. injection H as <-. eexists; reflexivity. }
  assert (NU : forall f a n i, visit_is_null f a n = Some i -> exists q, scalar_query i = Some q).
  { intros f a n i H. unfold visit_is_null in H. destruct (indexed_column f a) as [[c ix]|]; [|discriminate]. cbn [obind] in H. unfold p_is_null in H. destruct (ix_parser ix); [|destruct n; discriminate]. destruct n; cbn in H; injection H as <-; eexists; reflexivity. }
  intros f. induction e as [c|v|o a IHa b IHb|a IHa b IHb|a IHa b IHb|a IHa|n a IHa lo IHlo hi IHhi|n a IHa l|a IHa|a IHa|a IHa|a IHa|all c ls|n]; intros i H; cbn [visit] in H; try discriminate; eauto.
  - destruct o; try (apply CM in H as [_ H]; exact H). destruct (visit_comparison f ONe a b) as [j|] eqn:E; [|discriminate]. apply CM in E as [E1 [q E2]]. destruct j as [jq jr]. cbn in *. subst. cbn in H. injection H as <-. eexists; reflexivity.
  - destruct (maybe_between a b) as [[[x lo] hi]|]; [eauto|]. destruct (visit f a) as [l|], (visit f b) as [r|]; try discriminate; injection H as <-.
    + destruct (IHa _ eq_refl) as [p P]. cbn. rewrite P. destruct (scalar_query r); eexists; reflexivity.
    + destruct (IHa _ eq_refl) as [p P]. cbn. eauto.
    + destruct (IHb _ eq_refl) as [p P]. cbn. eauto.
  - destruct (visit f a) as [l|], (visit f b) as [r|]; try discriminate. destruct l as [[p|] [?|]], r as [[q|] [?|]]; cbn in H; try discriminate. injection H as <-. eexists; reflexivity.
  - destruct (visit f a) as [j|]; [|discriminate]. cbn [obind] in H. destruct (IHa j eq_refl) as [p P]. apply maybe_not_inv in H as [[q [-> ->]]|[e [-> _]]]; [eexists; reflexivity|discriminate].
  - unfold visit_in_list in H. destruct (indexed_column f a) as [[c ix]|]; [|discriminate]. cbn [obind] in H. destruct (maybe_scalar_list ix l); [|discriminate]. cbn [obind] in H. unfold p_in_list in H. destruct (ix_parser ix); [|destruct n; discriminate]. destruct n; cbn in H; injection H as <-; eexists; reflexivity.
  - destruct (f c) as [ix|]; [|discriminate]. cbn [obind] in H. unfold p_scalar_fn in H. destruct (ix_parser ix); [discriminate|]. destruct (ix_fits_list ix ls); [|discriminate]. injection H as <-. eexists; reflexivity.
Qed.

Lemma between_visit : forall f r x lo hi i, visit_between f false x lo hi = Some i -> (iholds r i <-> holds r (EBetween false x lo hi)).
Proof.
  intros f r x lo hi i H. unfold visit_between in H. destruct (indexed_column f x) as [[c ix]|] eqn:EC; [|discriminate]. cbn [obind] in H. destruct (maybe_scalar ix lo) as [l|] eqn:EL; [|discriminate]. cbn [obind] in H. destruct (maybe_scalar ix hi) as [h|] eqn:EH; [|discriminate]. cbn [obind] in H.
  apply indexed_col in EC as [-> _]. apply maybe_scalar_lit in EL, EH. subst. unfold p_between in H. destruct (ix_parser ix); [|discriminate]. cbn in H. injection H as <-.
  unfold iholds, holds. cbn [scalar_query refine_expr index_query sat asat eval neg_if]. rewrite vb_bv, between_sound. tauto.
Qed.

Lemma maybe_between_sound : forall r a b x lo hi, maybe_between a b = Some (x, lo, hi) -> (holds r (EBetween false x lo hi) <-> holds r (EAnd a b)).
Proof.
  assert (SW : forall o x y, cmpv (match o with OGe => OLe | _ => OGe end) x y = cmpv (match o with OGe => OLe | _ => OGe end) x y) by reflexivity.
  assert (FL : forall x y, cmpv OGe x y = cmpv OLe y x) by (intros [x|] [y|]; reflexivity).
  assert (KC : forall p q, kand p q = kand q p) by (intros [[|]|] [[|]|]; reflexivity).
  intros r a b x lo hi H. destruct a; try discriminate. destruct o; try discriminate; destruct b; try discriminate; destruct o; try discriminate; cbn in H; unfold expr_eqb in H;
    repeat match type of H with context [expr_eq_dec ?p ?q] => destruct (expr_eq_dec p q) end; try discriminate; injection H as <- <- <-; subst; unfold holds; cbn [eval neg_if]; rewrite !vb_bv; rewrite ?FL.
  - rewrite KC. reflexivity.
  - reflexivity.
  - reflexivity.
  - rewrite KC. reflexivity.
Qed.

Theorem visit_sound : forall f r e i, typed f r -> nullsafe r e -> visit f e = Some i -> (iholds r i <-> holds r e).
Proof.
  assert (ONE : forall r c q P, (asat r c q <-> P) -> (iholds r {| scalar_query := Some (SQuery c q); refine_expr := None |} <-> P)).
  { intros r c q P H. unfold iholds. cbn. tauto. }
  intros f r e i T. revert i. induction e as [c|v|o a IHa b IHb|a IHa b IHb|a IHa b IHb|a IHa|n a IHa lo IHlo hi IHhi|n a IHa l|a IHa|a IHa|a IHa|a IHa|all c ls|n]; intros i NS H; cbn [visit] in H; try discriminate.
  - unfold visit_is_bool in H. cbn in H. destruct (f c) as [ix|] eqn:EF; [|discriminate]. cbn in H. destruct (ix_bool ix) eqn:EB; [|discriminate]. unfold p_is_bool in H. destruct (ix_parser ix); [|discriminate]. injection H as <-.
    apply ONE. unfold holds. cbn. destruct (T c ix EF EB) as [E|[E|E]]; rewrite E; cbn; split; congruence.
  - assert (H' : match o with ONe => obind (visit_comparison f o a b) maybe_not | _ => visit_comparison f o a b end = Some i) by (destruct o; exact H). clear H. rename H' into H.
    destruct (visit_comparison f o a b) as [j|] eqn:E; [|destruct o; discriminate]. unfold visit_comparison in E. destruct (indexed_column f a) as [[c ix]|] eqn:EC; [|discriminate]. cbn [obind] in E. destruct (maybe_scalar ix b) as [w|] eqn:EL; [|discriminate]. cbn [obind] in E.
    apply indexed_col in EC as [-> _]. apply maybe_scalar_lit in EL. subst b. unfold p_comparison in E. destruct (ix_parser ix); [|discriminate]. injection E as <-.
    destruct o; cbn in H; injection H as <-; unfold holds; cbn [eval]; rewrite vb_bv; cbn [nullsafe eval] in NS.
    + apply ONE. apply (cmp_sound OLt w); discriminate.
    + apply ONE. apply (cmp_sound OLe w); discriminate.
    + apply ONE. apply (cmp_sound OGt w); discriminate.
    + apply ONE. apply (cmp_sound OGe w); discriminate.
    + apply ONE. cbn. destruct (r_col r c) as [x|], w as [w|]; cbn; split; intros K; try congruence; try (destruct NS; congruence); injection K as K; [subst; f_equal; apply Z.eqb_refl|apply Z.eqb_eq in K; subst; reflexivity].
    + unfold iholds. cbn. destruct NS as [N1 N2]. destruct (r_col r c) as [x|]; [|congruence]. destruct w as [w|]; [|congruence]. cbn. split.
      * intros [K _]. f_equal. apply negb_true_iff, Z.eqb_neq. congruence.
      * intros K. injection K as K. split; [|exact Logic.I]. intros E. injection E as ->. rewrite Z.eqb_refl in K. discriminate.
  - destruct (maybe_between a b) as [[[x lo] hi]|] eqn:MB.
    + rewrite (between_visit f r x lo hi i H). apply maybe_between_sound. exact MB.
    + destruct NS as [NA NB]. rewrite holds_and. destruct (visit f a) as [l|] eqn:VA, (visit f b) as [q|] eqn:VB; try discriminate; injection H as <-.
      * specialize (IHa l NA eq_refl). specialize (IHb q NB eq_refl). rewrite <- IHa, <- IHb. unfold iholds, ie_and. cbn [scalar_query refine_expr]. destruct (scalar_query l), (scalar_query q), (refine_expr l), (refine_expr q); cbn [join sat]; rewrite ?holds_and; tauto.
      * specialize (IHa l NA eq_refl). rewrite <- IHa. unfold iholds, ie_refine. cbn [scalar_query refine_expr]. destruct (refine_expr l); rewrite ?holds_and; tauto.
      * specialize (IHb q NB eq_refl). rewrite <- IHb. unfold iholds, ie_refine. cbn [scalar_query refine_expr]. destruct (refine_expr q); rewrite ?holds_and; tauto.
  - destruct NS as [NA NB]. rewrite holds_or. destruct (visit f a) as [l|] eqn:VA, (visit f b) as [q|] eqn:VB; try discriminate. specialize (IHa l NA eq_refl). specialize (IHb q NB eq_refl). rewrite <- IHa, <- IHb.
    destruct l as [[p|] [?|]], q as [[p'|] [?|]]; cbn in H; try discriminate. injection H as <-. unfold iholds. cbn. tauto.
  - destruct NS as [NA NN]. destruct (visit f a) as [j|] eqn:VA; [|discriminate]. cbn [obind] in H. specialize (IHa j NA eq_refl). rewrite (holds_not r a NN), <- IHa. destruct (has_query f a j VA) as [q0 Q0]. apply maybe_not_inv in H as [[q [-> ->]]|[e [-> _]]]; [|discriminate]. unfold iholds. cbn. tauto.
  - destruct n.
    + unfold visit_between in H. destruct (indexed_column f a) as [[c ix]|] eqn:EC; [|discriminate]. cbn [obind] in H. destruct (maybe_scalar ix lo) as [l|] eqn:EL; [|discriminate]. cbn [obind] in H. destruct (maybe_scalar ix hi) as [h|] eqn:EH; [|discriminate]. cbn [obind] in H.
      apply indexed_col in EC as [-> _]. apply maybe_scalar_lit in EL, EH. subst. unfold p_between in H. destruct (ix_parser ix); [|discriminate]. cbn in H. injection H as <-.
      cbn [nullsafe eval] in NS. unfold iholds, holds. cbn [scalar_query refine_expr index_query sat asat eval neg_if] in *. rewrite vb_bv, between_sound. rewrite neg_eval; [tauto|]. intros E. apply NS. rewrite E. reflexivity.
    + apply between_visit with (f := f). exact H.
  - unfold visit_in_list in H. destruct (indexed_column f a) as [[c ix]|] eqn:EC; [|discriminate]. cbn [obind] in H. destruct (maybe_scalar_list ix l) as [vs|] eqn:EL; [|discriminate]. cbn [obind] in H.
    apply indexed_col in EC as [-> _]. apply scalar_list_lits in EL. subst l. unfold p_in_list in H. destruct (ix_parser ix); [|destruct n; discriminate].
    assert (MM : map (atom_val r) (map ALit vs) = vs) by (rewrite map_map; cbn; apply map_id). destruct n; cbn [not_if obind] in H.
    + cbn in H. injection H as <-. cbn [nullsafe eval neg_if] in NS. unfold iholds, holds. cbn [scalar_query refine_expr sat asat eval neg_if matches]. rewrite vb_bv. rewrite MM in *. rewrite neg_eval by (intros E; apply NS; rewrite E; reflexivity). rewrite in3_true.
      assert (r_col r c <> None) by (intros E; apply NS; rewrite E; reflexivity). tauto.
    + injection H as <-. apply ONE. cbn [nullsafe eval] in NS. unfold holds. cbn [asat eval neg_if matches]. rewrite vb_bv, MM, in3_true. rewrite MM in NS. split; [|tauto]. intros J. split; [|exact J]. intros E. rewrite E in *. destruct NS as [K|K]; [congruence|contradiction].
  - unfold visit_is_null in H. destruct (indexed_column f a) as [[c ix]|] eqn:EC; [|discriminate]. cbn [obind] in H. apply indexed_col in EC as [-> _]. unfold p_is_null in H. destruct (ix_parser ix); [|discriminate]. injection H as <-.
    apply ONE. unfold holds. cbn. destruct (r_col r c); cbn; split; congruence.
  - unfold visit_is_null in H. destruct (indexed_column f a) as [[c ix]|] eqn:EC; [|discriminate]. cbn [obind] in H. apply indexed_col in EC as [-> _]. unfold p_is_null in H. destruct (ix_parser ix); [|discriminate]. cbn in H. injection H as <-.
    unfold iholds, holds. cbn. destruct (r_col r c); cbn; split; try (intros [K _]; congruence); intros; split; congruence || exact Logic.I.
  - unfold visit_is_bool in H. destruct (indexed_column f a) as [[c ix]|] eqn:EC; [|discriminate]. cbn [obind] in H. apply indexed_col in EC as [-> EF]. destruct (ix_bool ix) eqn:EB; [|discriminate]. unfold p_is_bool in H. destruct (ix_parser ix); [|discriminate]. injection H as <-.
    apply ONE. unfold holds. cbn. destruct (T c ix EF EB) as [E|[E|E]]; rewrite E; cbn; split; congruence.
  - unfold visit_is_bool in H. destruct (indexed_column f a) as [[c ix]|] eqn:EC; [|discriminate]. cbn [obind] in H. apply indexed_col in EC as [-> EF]. destruct (ix_bool ix) eqn:EB; [|discriminate]. unfold p_is_bool in H. destruct (ix_parser ix); [|discriminate]. injection H as <-.
    apply ONE. unfold holds. cbn. destruct (T c ix EF EB) as [E|[E|E]]; rewrite E; cbn; split; congruence.
  - destruct (f c) as [ix|] eqn:EF; [|discriminate]. cbn [obind] in H. unfold p_scalar_fn in H. destruct (ix_parser ix); [discriminate|]. destruct (ix_fits_list ix ls); [|discriminate]. injection H as <-.
    apply ONE. unfold holds. cbn [asat eval]. rewrite vb_bv. unfold has3. destruct (r_list r c) as [l|]; [|split; [intros [l [E _]]; discriminate|discriminate]]. 
    assert (HV : forall v, existsb (veq v) l = true <-> In v l).
    { intros v. rewrite existsb_exists. split; [intros [y [J E]]; apply veq_true in E; subst; exact J|intros J; exists v; split; [exact J|apply veq_true; reflexivity]]. }
    destruct all; cbn [list_matches].
    + split.
      * intros [l' [E A]]. injection E as <-. f_equal. apply forallb_forall. intros v J. apply HV. apply A. exact J.
      * intros E. injection E as E. exists l. split; [reflexivity|]. intros v J. apply HV. rewrite forallb_forall in E. apply E. exact J.
    + split.
      * intros [l' [E [v [J A]]]]. injection E as <-. f_equal. apply existsb_exists. exists v. split; [exact J|apply HV; exact A].
      * intros E. injection E as E. apply existsb_exists in E as [v [J E]]. exists l. split; [reflexivity|]. exists v. split; [exact J|apply HV; exact E].
Qed.

(* ---- the filter applied to fragments no index covers ---- *)
(* no boolean column of an IS TRUE / IS FALSE test is null *)
Fixpoint boolsafe (r : row) (e : expr) : Prop :=
  match e with
  | ENot a => boolsafe r a
  | EAnd a b | EOr a b => boolsafe r a /\ boolsafe r b
  | EIsTrue a | EIsFalse a => eval r a <> None
  | _ => True
  end.
Lemma between3 : forall r a b x lo hi, maybe_between a b = Some (x, lo, hi) -> eval r (EBetween false x lo hi) = eval r (EAnd a b).
Proof.
  assert (FL : forall x y, cmpv OGe x y = cmpv OLe y x) by (intros [x|] [y|]; reflexivity).
  assert (KC : forall p q, kand p q = kand q p) by (intros [[|]|] [[|]|]; reflexivity).
  intros r a b x lo hi H. destruct a; try discriminate. destruct o; try discriminate; destruct b; try discriminate; destruct o; try discriminate; cbn in H; unfold expr_eqb in H;
    repeat match type of H with context [expr_eq_dec ?p ?q] => destruct (expr_eq_dec p q) end; try discriminate; injection H as <- <- <-; subst; cbn [eval neg_if]; rewrite !vb_bv; rewrite ?FL.
  - rewrite KC. reflexivity.
  - reflexivity.
  - reflexivity.
  - rewrite KC. reflexivity.
Qed.
Lemma knot_cmp : forall x y, knot (cmpv OEq x y) = cmpv ONe x y.
Proof. intros [x|] [y|]; reflexivity. Qed.

Lemma to_expr_eval : forall f r e i s t, typed f r -> boolsafe r e -> visit f e = Some i -> scalar_query i = Some s -> refine_expr i = None -> to_expr s = Some t -> vb (eval r t) = vb (eval r e).
Proof.
  intros f r e. induction e as [c|v|o a IHa b IHb|a IHa b IHb|a IHa b IHb|a IHa|n a IHa lo IHlo hi IHhi|n a IHa l|a IHa|a IHa|a IHa|a IHa|all c ls|n]; intros i s t T BS H Q R X; cbn [visit] in H; try discriminate.
  - unfold visit_is_bool in H. cbn in H. destruct (f c) as [ix|] eqn:EF; [|discriminate]. cbn in H. destruct (ix_bool ix) eqn:EB; [|discriminate]. unfold p_is_bool in H. destruct (ix_parser ix); [|discriminate]. injection H as <-. cbn in Q. injection Q as <-. cbn in X. injection X as <-. cbn.
    destruct (T c ix EF EB) as [E|[E|E]]; rewrite E; reflexivity.
  - assert (H' : match o with ONe => obind (visit_comparison f o a b) maybe_not | _ => visit_comparison f o a b end = Some i) by (destruct o; exact H). clear H. rename H' into H.
    destruct (visit_comparison f o a b) as [j|] eqn:E; [|destruct o; discriminate]. unfold visit_comparison in E. destruct (indexed_column f a) as [[c ix]|] eqn:EC; [|discriminate]. cbn [obind] in E. destruct (maybe_scalar ix b) as [w|] eqn:EL; [|discriminate]. cbn [obind] in E.
    apply indexed_col in EC as [-> _]. apply maybe_scalar_lit in EL. subst b. unfold p_comparison in E. destruct (ix_parser ix); [|discriminate]. injection E as <-.
    destruct o; cbn in H; injection H as <-; cbn in Q; injection Q as <-; cbn in X; injection X as <-; cbn [eval]; rewrite ?vb_bv; try reflexivity. apply knot_cmp.
  - destruct (maybe_between a b) as [[[x lo] hi]|] eqn:MB.
    + rewrite <- (between3 r _ _ _ _ _ MB). unfold visit_between in H. destruct (indexed_column f x) as [[c ix]|] eqn:EC; [|discriminate]. cbn [obind] in H. destruct (maybe_scalar ix lo) as [l|] eqn:EL; [|discriminate]. cbn [obind] in H. destruct (maybe_scalar ix hi) as [h|] eqn:EH; [|discriminate]. cbn [obind] in H.
      apply indexed_col in EC as [-> _]. apply maybe_scalar_lit in EL, EH. subst. unfold p_between in H. destruct (ix_parser ix); [|discriminate]. cbn in H. injection H as <-. cbn in Q. injection Q as <-. cbn in X. injection X as <-. reflexivity.
    + destruct BS as [BA BB]. destruct (visit f a) as [l|] eqn:VA, (visit f b) as [q|] eqn:VB; try discriminate; injection H as <-; try discriminate.
      destruct l as [[p|] [?|]], q as [[p'|] [?|]]; cbn in R; try discriminate; cbn in Q; try discriminate; try (destruct (has_query _ _ _ VA) as [? U]; discriminate U); try (destruct (has_query _ _ _ VB) as [? U]; discriminate U).
      injection Q as <-. cbn in X. destruct (to_expr p) as [tp|] eqn:TP; [|discriminate]. destruct (to_expr p') as [tq|] eqn:TQ; [|discriminate]. cbn in X. injection X as <-. cbn [eval]. rewrite !vb_bv.
      rewrite (IHa _ p tp T BA eq_refl eq_refl eq_refl TP), (IHb _ p' tq T BB eq_refl eq_refl eq_refl TQ). reflexivity.
  - destruct BS as [BA BB]. destruct (visit f a) as [l|] eqn:VA, (visit f b) as [q|] eqn:VB; try discriminate. destruct l as [[p|] [?|]], q as [[p'|] [?|]]; cbn in H; try discriminate. injection H as <-. cbn in Q. injection Q as <-. cbn in X. destruct (to_expr p) as [tp|] eqn:TP; [|discriminate]. destruct (to_expr p') as [tq|] eqn:TQ; [|discriminate]. cbn in X. injection X as <-. cbn [eval]. rewrite !vb_bv.
    rewrite (IHa _ p tp T BA eq_refl eq_refl eq_refl TP), (IHb _ p' tq T BB eq_refl eq_refl eq_refl TQ). reflexivity.
  - destruct (visit f a) as [j|] eqn:VA; [|discriminate]. cbn [obind] in H. destruct (has_query f a j VA) as [q0 Q0]. apply maybe_not_inv in H as [[q [-> ->]]|[e [-> _]]]; [|discriminate]. cbn in Q. injection Q as <-. cbn in X. destruct (to_expr q) as [tq|] eqn:TQ; [|discriminate]. cbn in X. injection X as <-. cbn [eval]. rewrite !vb_bv.
    rewrite (IHa _ q tq T BS eq_refl eq_refl eq_refl TQ). reflexivity.
  - unfold visit_between in H. destruct (indexed_column f a) as [[c ix]|] eqn:EC; [|discriminate]. cbn [obind] in H. destruct (maybe_scalar ix lo) as [l|] eqn:EL; [|discriminate]. cbn [obind] in H. destruct (maybe_scalar ix hi) as [h|] eqn:EH; [|discriminate]. cbn [obind] in H.
    apply indexed_col in EC as [-> _]. apply maybe_scalar_lit in EL, EH. subst. unfold p_between in H. destruct (ix_parser ix); [|destruct n; discriminate]. destruct n; cbn in H; injection H as <-; cbn in Q; injection Q as <-; cbn in X; injection X as <-; cbn [eval neg_if]; rewrite !vb_bv; reflexivity.
  - unfold visit_in_list in H. destruct (indexed_column f a) as [[c ix]|] eqn:EC; [|discriminate]. cbn [obind] in H. destruct (maybe_scalar_list ix l) as [vs|] eqn:EL; [|discriminate]. cbn [obind] in H.
    apply indexed_col in EC as [-> _]. apply scalar_list_lits in EL. subst l. unfold p_in_list in H. destruct (ix_parser ix); [|destruct n; discriminate]. destruct n; cbn in H; injection H as <-; cbn in Q; injection Q as <-; cbn in X; injection X as <-; cbn [eval neg_if]; rewrite !vb_bv; reflexivity.
  - unfold visit_is_null in H. destruct (indexed_column f a) as [[c ix]|] eqn:EC; [|discriminate]. cbn [obind] in H. apply indexed_col in EC as [-> _]. unfold p_is_null in H. destruct (ix_parser ix); [|discriminate]. injection H as <-. cbn in Q. injection Q as <-. cbn in X. injection X as <-. reflexivity.
  - unfold visit_is_null in H. destruct (indexed_column f a) as [[c ix]|] eqn:EC; [|discriminate]. cbn [obind] in H. apply indexed_col in EC as [-> _]. unfold p_is_null in H. destruct (ix_parser ix); [|discriminate]. cbn in H. injection H as <-. cbn in Q. injection Q as <-. cbn in X. injection X as <-. cbn. destruct (is_none (r_col r c)); reflexivity.
  - unfold visit_is_bool in H. destruct (indexed_column f a) as [[c ix]|] eqn:EC; [|discriminate]. cbn [obind] in H. apply indexed_col in EC as [-> EF]. destruct (ix_bool ix) eqn:EB; [|discriminate]. unfold p_is_bool in H. destruct (ix_parser ix); [|discriminate]. injection H as <-. cbn in Q. injection Q as <-. cbn in X. injection X as <-. cbn in *.
    destruct (T c ix EF EB) as [E|[E|E]]; rewrite E in *; try reflexivity. congruence.
  - unfold visit_is_bool in H. destruct (indexed_column f a) as [[c ix]|] eqn:EC; [|discriminate]. cbn [obind] in H. apply indexed_col in EC as [-> EF]. destruct (ix_bool ix) eqn:EB; [|discriminate]. unfold p_is_bool in H. destruct (ix_parser ix); [|discriminate]. injection H as <-. cbn in Q. injection Q as <-. cbn in X. injection X as <-. cbn in *.
    destruct (T c ix EF EB) as [E|[E|E]]; rewrite E in *; try reflexivity. congruence.
  - destruct (f c) as [ix|] eqn:EF; [|discriminate]. cbn [obind] in H. unfold p_scalar_fn in H. destruct (ix_parser ix); [discriminate|]. destruct (ix_fits_list ix ls); [|discriminate]. injection H as <-. cbn in Q. injection Q as <-. destruct all; cbn in X; destruct (existsb is_none ls); try discriminate; destruct ls; try discriminate; injection X as <-; reflexivity.
Qed.

Lemma index_not_ref : forall n c q i, not_if n (Some (index_query c q)) = Some i -> refine_expr i = None.
Proof. intros [|] c q i H; cbn in H; injection H as <-; reflexivity. Qed.
Lemma between_ref : forall f n x lo hi i, visit_between f n x lo hi = Some i -> refine_expr i = None.
Proof.
  intros f n x lo hi i V. unfold visit_between in V. destruct (indexed_column f x) as [[c ix]|]; [|discriminate]. cbn [obind] in V. destruct (maybe_scalar ix lo); [|discriminate]. cbn [obind] in V. destruct (maybe_scalar ix hi); [|discriminate]. cbn [obind] in V. unfold p_between in V. destruct (ix_parser ix); [|destruct n; discriminate]. apply index_not_ref in V. exact V.
Qed.
Lemma in_list_ref : forall f n x l i, visit_in_list f n x l = Some i -> refine_expr i = None.
Proof.
  intros f n x l i V. unfold visit_in_list in V. destruct (indexed_column f x) as [[c ix]|]; [|discriminate]. cbn [obind] in V. destruct (maybe_scalar_list ix l); [|discriminate]. cbn [obind] in V. unfold p_in_list in V. destruct (ix_parser ix); [|destruct n; discriminate]. apply index_not_ref in V. exact V.
Qed.
Lemma is_null_ref : forall f x n i, visit_is_null f x n = Some i -> refine_expr i = None.
Proof.
  intros f x n i V. unfold visit_is_null in V. destruct (indexed_column f x) as [[c ix]|]; [|discriminate]. cbn [obind] in V. unfold p_is_null in V. destruct (ix_parser ix); [|destruct n; discriminate]. apply index_not_ref in V. exact V.
Qed.
Lemma is_bool_ref : forall f x b i, visit_is_bool f x b = Some i -> refine_expr i = None.
Proof.
  intros f x b i V. unfold visit_is_bool in V. destruct (indexed_column f x) as [[c ix]|]; [|discriminate]. cbn [obind] in V. destruct (ix_bool ix); [|discriminate]. unfold p_is_bool in V. destruct (ix_parser ix); [|discriminate]. injection V as <-. reflexivity.
Qed.
Lemma cmp_ref : forall f o a b i, visit f (ECmp o a b) = Some i -> refine_expr i = None.
Proof.
  intros f o a b i V. assert (G : forall j, visit_comparison f o a b = Some j -> exists c q, j = index_query c q).
  { intros j E. unfold visit_comparison in E. destruct (indexed_column f a) as [[c ix]|]; [|discriminate]. cbn [obind] in E. destruct (maybe_scalar ix b); [|discriminate]. cbn [obind] in E. unfold p_comparison in E. destruct (ix_parser ix); [|discriminate]. injection E as <-. eauto. }
  destruct o; cbn [visit] in V; try (destruct (G i V) as [c [q ->]]; reflexivity). destruct (visit_comparison f ONe a b) as [j|]; [|discriminate]. destruct (G j eq_refl) as [c [q ->]]. cbn in V. injection V as <-. reflexivity.
Qed.

(* on a row of an uncovered fragment, the filter made from the index query agrees
   with the index query *)
Theorem to_expr_sound : forall f r e i s t, typed f r -> nullsafe r e -> boolsafe r e -> visit f e = Some i -> scalar_query i = Some s -> to_expr s = Some t -> (holds r t <-> sat r s).
Proof.
  intros f r e. assert (NOREF : forall e i s t, typed f r -> nullsafe r e -> boolsafe r e -> visit f e = Some i -> scalar_query i = Some s -> refine_expr i = None -> to_expr s = Some t -> (holds r t <-> sat r s)).
  { intros e0 i s t T NS BS V Q R X. pose proof (visit_sound f r e0 i T NS V) as S. unfold iholds in S. rewrite Q, R in S. unfold holds in *. rewrite (to_expr_eval f r e0 i s t T BS V Q R X). tauto. }
  induction e as [c|v|o a IHa b IHb|a IHa b IHb|a IHa b IHb|a IHa|n a IHa lo IHlo hi IHhi|n a IHa l|a IHa|a IHa|a IHa|a IHa|all c ls|n]; intros i s t T NS BS V Q X;
    lazymatch type of V with visit _ (EAnd _ _) = _ => idtac | _ => destruct (refine_expr i) as [x|] eqn:R; [exfalso|eapply NOREF; eassumption] end.
  all: try (cbn [visit] in V; first [discriminate | apply is_bool_ref in V | apply is_null_ref in V | apply in_list_ref in V | apply between_ref in V]; congruence).
  - apply cmp_ref in V. congruence.
  - cbn [visit] in V. destruct (maybe_between a b) as [[[y lo] hi]|] eqn:MB.
    + eapply (NOREF (EBetween false y lo hi)); try eassumption; try exact Logic.I. unfold visit_between in V. destruct (indexed_column f y) as [[c ix]|]; [|discriminate]. cbn [obind] in V. destruct (maybe_scalar ix lo); [|discriminate]. cbn [obind] in V. destruct (maybe_scalar ix hi); [|discriminate]. cbn [obind not_if] in V. unfold p_between in V. destruct (ix_parser ix); [|discriminate]. injection V as <-. reflexivity.
    + destruct NS as [NA NB], BS as [BA BB]. destruct (visit f a) as [l|] eqn:VA, (visit f b) as [q|] eqn:VB; try discriminate; injection V as <-; cbn in Q.
      * destruct (scalar_query l) as [p|] eqn:QA; [|destruct (has_query _ _ _ VA) as [? U]; congruence]. destruct (scalar_query q) as [p'|] eqn:QB; [|destruct (has_query _ _ _ VB) as [? U]; congruence]. injection Q as <-. cbn in X.
        destruct (to_expr p) as [tp|] eqn:TP; [|discriminate]. destruct (to_expr p') as [tq|] eqn:TQ; [|discriminate]. cbn in X. injection X as <-. rewrite holds_and. cbn [sat].
        rewrite (IHa l p tp T NA BA eq_refl QA TP), (IHb q p' tq T NB BB eq_refl QB TQ). reflexivity.
      * eapply IHa; eauto.
      * eapply IHb; eauto.
  - cbn [visit] in V. destruct (visit f a) as [l|], (visit f b) as [q|]; try discriminate. destruct l as [[p|] [?|]], q as [[p'|] [?|]]; cbn in V; try discriminate. injection V as <-. discriminate.
  - cbn [visit] in V. destruct (visit f a) as [j|] eqn:VA; [|discriminate]. cbn [obind] in V. destruct (has_query f a j VA) as [q0 Q0]. apply maybe_not_inv in V as [[q [-> ->]]|[e [-> _]]]; discriminate.
  - cbn [visit] in V. destruct (f c) as [ix|]; [|discriminate]. cbn [obind] in V. unfold p_scalar_fn in V. destruct (ix_parser ix); [discriminate|]. destruct (ix_fits_list ix ls); [|discriminate]. injection V as <-. discriminate.
Qed.
