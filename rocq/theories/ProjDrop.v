(* C92, C93: removing columns from projections and schemas; counterexamples and instances. *)
From Coq Require Import List Arith ZArith Bool Lia String.
From Verif Require Import Lib ReadParamsModel SchemaModel SchemaProofs ProjModel ProjProofs ProjIds.
Import ListNotations.
Open Scope list_scope.

(* ---- results are schemas ---- *)
Lemma by_ids_list_sub : forall ids all c, NoDup (map r_name c) -> (forall x g, In x c -> In g (f_by_ids ids all x) -> sub g x) ->
  subs (flat_map (f_by_ids ids all) c) c.
Proof.
  intros ids all c N H. split.
  - clear H. induction c as [|x c IH]; [constructor|]. inversion N as [|? ? NI N']; subst. cbn [flat_map]. rewrite map_app.
    assert (L : f_by_ids ids all x = [] \/ exists g, f_by_ids ids all x = [g] /\ r_name g = r_name x).
    { destruct x as [a d]. rewrite by_ids_eq. cbv zeta. destruct (memZ (a_id a) ids && _); [right; eexists; split; reflexivity|]. destruct (flat_map (f_by_ids ids all) d); [left; reflexivity|right; eexists; split; reflexivity]. }
    destruct L as [->|[g [-> E]]]; [exact (IH N')|]. cbn [map app]. constructor; [|exact (IH N')]. rewrite E. intros J. apply NI. apply in_map_iff in J as [y [EY J]]. apply in_flat_map in J as [z [J1 J2]]. apply in_map_iff. exists z. split; [|exact J1]. rewrite <- EY. unfold r_name. rewrite (by_ids_name _ _ _ _ J2). reflexivity.
  - rewrite Forall_forall. intros g J. apply in_flat_map in J as [x [J1 J2]]. eauto.
Qed.
Lemma by_ids_sub : forall ids all f, well f -> forall g, In g (f_by_ids ids all f) -> sub g f.
Proof.
  intros ids all. induction f as [a c IH] using rfield_ind'. intros W g J. assert (SR := sub_refl _ W). inversion W as [? ? N K WC]; subst. rewrite Forall_forall in IH, WC. rewrite by_ids_eq in J. cbv zeta in J.
  assert (S : subs (flat_map (f_by_ids ids all) c) c) by (apply by_ids_list_sub; auto).
  destruct (memZ (a_id a) ids && _); [destruct J as [<-|[]]; exact SR|]. destruct (flat_map (f_by_ids ids all) c) as [|x t]; [contradiction|]. destruct J as [<-|[]]. destruct S as [S1 S2]. constructor; auto. destruct (kind_of (a_type a)); auto; discriminate.
Qed.
Theorem by_ids_well : forall ids all l, schema_well l -> schema_well (project_by_ids ids all l).
Proof. intros ids all l W. apply (subs_well _ l W). destruct W as [N W]. rewrite Forall_forall in W. apply by_ids_list_sub; [exact N|]. intros x g J. apply by_ids_sub. auto. Qed.

(* ---- C92: what is left to read once some columns are loaded ---- *)
Lemma not_selected_below : forall cols q p, prefix q p -> selected cols p -> selected cols q.
Proof. intros cols q p P [c [J [S|S]]]; exists c; (split; [exact J|]); [left; eapply prefix_trans; eauto|]. eapply comparable; eauto. Qed.
Lemma prefix_step : forall p q, prefix p q -> p <> q -> exists y, prefix (p ++ [y]) q.
Proof. intros p q [x ->] NE. destruct x as [|y x]; [rewrite app_nil_r in NE; congruence|]. exists y, x. rewrite <- app_assoc. reflexivity. Qed.
Lemma snoc_neq : forall (p : list string) y, p ++ [y] <> p.
Proof. intros p y E. rewrite <- (app_nil_r p) in E at 2. apply app_inv_head in E. discriminate. Qed.
Lemma snoc_ne : forall (p : list string) y, p ++ [y] <> [].
Proof. intros p y E. apply app_eq_nil in E as [_ E]. discriminate. Qed.
Theorem subtract_schema_exact : forall l cols1 cols2 r1 r2, schema_well l -> NoDup (r_field_ids l) -> Forall (fun c => exists f, at_path l c f) cols1 ->
  projects l cols1 r1 -> projects l cols2 r2 ->
  forall p a, leaf (to_schema l (subtract_schema (r_field_ids r1) r2)) p a <-> leaf l p a /\ selected cols1 p /\ ~ selected cols2 p.
Proof.
  intros l cols1 cols2 r1 r2 W N F P1 P2 p a. unfold to_schema. set (ids := subtract_schema (r_field_ids r1) r2).
  assert (M : forall q, marked ids l q <-> (exists a, has l q a) /\ selected cols1 q /\ ~ selected cols2 q).
  { intros q. split.
    - intros [f [H J]]. unfold ids, subtract_schema in J. apply filter_In in J as [J NJ]. apply negb_true_iff in NJ.
      destruct (proj1 (marked_ids l cols1 r1 q N P1) (ex_intro _ f (conj H J))) as [X S]. split; [exact X|]. split; [exact S|]. intros S2.
      destruct (proj2 (marked_ids l cols2 r2 q N P2) (conj X S2)) as [g [A K]]. assert (g = f) by (eapply at_unique; eauto). subst g. apply memZ_iff in K. congruence.
    - intros [X [S NS]]. destruct (proj2 (marked_ids l cols1 r1 q N P1) (conj X S)) as [f [H J]]. exists f. split; [exact H|]. apply filter_In. split; [exact J|]. apply negb_true_iff. destruct (memZ (r_id f) (r_field_ids r2)) eqn:E; [|reflexivity]. exfalso. apply memZ_iff in E. apply NS.
      exact (proj2 (proj1 (marked_ids l cols2 r2 q N P2) (ex_intro _ f (conj H E)))). }
  rewrite Forall_forall in F.
  (* below a marked field that is not the end of a column something is marked *)
  assert (DOWN : forall q b, has l q b -> marked ids l q -> (forall q' b', has l q' b' -> prefix q q' -> q' = q) \/ exists y, marked ids l (q ++ [y])).
  { intros q b H MQ. apply M in MQ as [X [[c [J S]] NS]].
    assert (UP : forall z, prefix q z -> ~ selected cols2 z) by (intros z P S2; apply NS; eapply not_selected_below; eauto).
    assert (NQ : q <> []) by (intros ->; destruct (has_nopath _ _ H)).
    destruct S as [S|S].
    - destruct (list_eq_dec string_dec q c) as [->|NE].
      + destruct H as [f [A EF]]. destruct (r_children f) as [|x t] eqn:C.
        * left. apply (leaf_iff l c (r_attrs f) W). exists f. auto.
        * right. exists (r_name x). assert (NL : has l (c ++ [r_name x]) (r_attrs x)).
          { exists x. split; [|reflexivity]. clear - A C. induction A as [l f J|l f p g J A IH]; cbn [app]; (eapply at_below; [exact J|]); [constructor; rewrite C; left; reflexivity|exact (IH C)]. }
          apply M. split; [eauto|]. split; [exists c; split; [exact J|right; eexists; reflexivity]|apply UP; eexists; reflexivity].
      + right. destruct (prefix_step q c S NE) as [y PY]. exists y. apply M. destruct (F c J) as [f A]. split; [apply (has_prefix l (q ++ [y]) c (r_attrs f)); [exists f; auto|exact PY|apply snoc_ne]|]. split; [exists c; auto|apply UP; eexists; reflexivity].
    - destruct H as [f [A EF]]. destruct (r_children f) as [|x t] eqn:C.
      + left. apply (leaf_iff l q (r_attrs f) W). exists f. auto.
      + right. exists (r_name x). assert (NL : has l (q ++ [r_name x]) (r_attrs x)).
        { exists x. split; [|reflexivity]. clear - A C. induction A as [l f J|l f p g J A IH]; cbn [app]; (eapply at_below; [exact J|]); [constructor; rewrite C; left; reflexivity|exact (IH C)]. }
        apply M. split; [eauto|]. split; [exists c; split; [exact J|right; eapply prefix_trans; [exact S|eexists; reflexivity]]|apply UP; eexists; reflexivity]. }
  rewrite (leaf_iff _ p a (by_ids_well ids false l W)), (leaf_iff l p a W), (by_ids_exact ids false l W p a). split.
  - intros [[H K] D].
    assert (ME : marked ids l p).
    { destruct K as [[q [P MQ]]|[q [P [MQ [X|X]]]]]; [|discriminate|].
      - destruct (list_eq_dec string_dec p q) as [->|NE]; [exact MQ|]. exfalso. destruct (prefix_step p q P NE) as [y PY]. assert (MQ' := MQ). apply M in MQ' as [[e HQ] _]. destruct (has_prefix l (p ++ [y]) q e HQ PY (snoc_ne p y)) as [b HB].
        apply (snoc_neq p y). apply (D _ b); [|eexists; reflexivity]. apply (by_ids_exact ids false l W). split; [exact HB|]. left. eauto.
      - destruct (list_eq_dec string_dec q p) as [->|NE]; [exact MQ|]. exfalso. destruct (has_prefix l q p a H P) as [b HB]; [intros ->; destruct (marked_nopath _ _ MQ)|].
        destruct (DOWN q b HB MQ) as [DL|[y MY]]; [apply NE; symmetry; apply (DL p a H P)|]. apply (snoc_neq q y). apply X; [eexists; reflexivity|exact MY]. }
    assert (ME' := ME). apply M in ME' as [_ S]. split; [|exact S]. split; [exact H|]. destruct (DOWN p a H ME) as [DL|[y MY]]; [exact DL|]. exfalso. apply (snoc_neq p y). assert (MY' := MY). apply M in MY' as [[b HB] _]. apply (D _ b); [|eexists; reflexivity]. apply (by_ids_exact ids false l W). split; [exact HB|]. left. exists (p ++ [y]). split; [apply prefix_refl|exact MY].
  - intros [[H D] S]. split; [split; [exact H|]|].
    + left. exists p. split; [apply prefix_refl|]. apply M. eauto.
    + intros q b HQ P. apply (by_ids_exact ids false l W) in HQ as [HQ _]. eapply D; eauto.
Qed.

(* ---- C93: excluding and dropping ---- *)
Lemma leaf_one : forall f p a, leaf [f] p a <-> (p = [r_name f] /\ a = r_attrs f /\ r_children f = []) \/ exists q, p = r_name f :: q /\ leaf (r_children f) q a.
Proof.
  intros f p a. unfold leaf. split.
  - intros [g [H [E C]]]. apply at_one in H as [[-> ->]|[q [-> H]]]; [left; auto|right; eauto 6].
  - intros [[-> [-> C]]|[q [-> [g [H [E C]]]]]]; [exists f|exists g]; (split; [apply at_one; eauto|auto]).
Qed.
Lemma leaf_in : forall l p a, leaf l p a <-> exists f, In f l /\ leaf [f] p a.
Proof.
  intros l p a. unfold leaf. split.
  - intros [g [H E]]. apply at_in in H as [f [J H]]. eauto.
  - intros [f [J [g [H E]]]]. exists g. split; [apply at_in; eauto|exact E].
Qed.
Definition opt_list {A} (o : option A) : list A := match o with Some x => [x] | None => [] end.
Lemma exclude_eq : forall a c o, f_exclude (RF a c) o =
  match flat_map (fun x => opt_list (match lookup (r_name x) (r_children o) with Some y => f_exclude x y | None => Some x end)) c with [] => None | c' => Some (RF a c') end.
Proof. reflexivity. Qed.
Lemma exclude_leaves : forall f o, well f -> sub o f -> forall p a, leaf (opt_list (f_exclude f o)) p a <-> leaf [f] p a /\ forall b, ~ has [o] p b.
Proof.
  induction f as [b c IH] using rfield_ind'. intros o W S p a. inversion W as [? ? N K WC]; subst. rewrite Forall_forall in IH, WC. inversion S as [? d ? ND KD FD]; subst. rewrite exclude_eq. cbn [r_children].
  set (c' := flat_map _ c).
  assert (C : forall q e, leaf c' q e <-> leaf c q e /\ forall b', ~ has d q b').
  { intros q e. unfold c'. split.
    - intros H. apply leaf_in in H as [g [J H]]. apply in_flat_map in J as [x [JX JG]]. destruct (lookup (r_name x) d) as [y|] eqn:L.
      + apply (lookup_some _ _ _ ND) in L as [JY EY]. rewrite Forall_forall in FD. destruct (FD y JY) as [z [JZ SZ]]. assert (z = x) by (apply (same_name c); auto; rewrite <- (sub_name _ _ SZ); exact EY). subst z.
        assert (H' : leaf (opt_list (f_exclude x y)) q e) by (apply leaf_in; eauto). apply (IH x JX y (WC x JX) SZ) in H' as [H1 H2]. split; [apply leaf_in; eauto|]. intros b' HB. destruct (has_head _ _ _ (leaf_has _ _ _ H1)) as [r ->]. rewrite <- EY in HB. apply (has_head_iff d y r b' ND JY) in HB. rewrite EY in HB. exact (H2 b' HB).
      + destruct JG as [<-|[]]. split; [apply leaf_in; eauto|]. intros b' HB. destruct (has_head _ _ _ (leaf_has _ _ _ H)) as [r ->]. apply lookup_none in L. apply L. destruct (has_name _ _ _ HB) as [y [r' [JY E]]]. injection E as -> _. apply in_map. exact JY.
    - intros [H D]. apply leaf_in in H as [x [JX H]]. apply leaf_in. destruct (lookup (r_name x) d) as [y|] eqn:L.
      + assert (L' := L). apply (lookup_some _ _ _ ND) in L' as [JY EY]. rewrite Forall_forall in FD. destruct (FD y JY) as [z [JZ SZ]]. assert (z = x) by (apply (same_name c); auto; rewrite <- (sub_name _ _ SZ); exact EY). subst z.
        assert (H' : leaf (opt_list (f_exclude x y)) q e). { apply (IH x JX y (WC x JX) SZ). split; [exact H|]. intros b' HB. apply (D b'). apply has_in. eauto. }
        apply leaf_in in H' as [g [JG H']]. exists g. split; [|exact H']. apply in_flat_map. exists x. rewrite L. auto.
      + exists x. split; [|exact H]. apply in_flat_map. exists x. rewrite L. split; [exact JX|left; reflexivity]. }
  assert (R : forall q e, leaf c' q e -> leaf [RF b c] (b.(a_name) :: q) e) by (intros q e H; apply leaf_one; right; exists q; split; [reflexivity|apply C; exact H]).
  assert (SELF : forall e, has [RF b d] [a_name b] e <-> e = b).
  { intros e. rewrite has_one. cbn [r_attrs r_children]. split; [intros [[_ ->]|[q [E H]]]; [reflexivity|injection E as <-; destruct (has_nopath _ _ H)]|intros ->; left; auto]. }
  destruct c' as [|x t] eqn:EC; cbn [opt_list].
  - split; [intros H; apply leaf_in in H as [g [[] _]]|]. intros [H D]. exfalso. apply leaf_one in H as [[-> [-> _]]|[q [-> H]]].
    + apply (D b). apply SELF. reflexivity.
    + assert (X : leaf [] q a); [|apply leaf_in in X as [g [[] _]]]. apply C. split; [exact H|]. intros b' HB. apply (D b'). apply has_one. right. exists q. auto.
  - rewrite <- EC in *. rewrite (leaf_one (RF b c')), (leaf_one (RF b c)). cbn [r_children r_attrs]. change (r_name (RF b c')) with (a_name b). change (r_name (RF b c)) with (a_name b). split.
    + intros [[_ [_ E]]|[q [-> H]]]; [congruence|]. apply C in H as [H D]. split; [right; eauto|]. intros b' HB. apply has_one in HB as [[E _]|[r [E HB]]].
      * injection E as ->. destruct (has_nopath _ _ (leaf_has _ _ _ H)).
      * injection E as <-. exact (D b' HB).
    + intros [[[-> [-> E]]|[q [-> H]]] D].
      * exfalso. apply (D b). apply SELF. reflexivity.
      * right. exists q. split; [reflexivity|]. apply C. split; [exact H|]. intros b' HB. apply (D b'). apply has_one. right. exists q. auto.
Qed.
(* Schema::exclude takes away exactly the leaves of the other schema, unless a list at the top
   is named in part *)
Theorem exclude_exact : forall l o, schema_well l -> subs o l ->
  (forall f y, In f l -> In y o -> r_name y = r_name f -> fkind f = KStruct \/ forall p a, has [f] p a -> has [y] p a) ->
  forall p a, leaf (exclude l o) p a <-> leaf l p a /\ forall b, ~ has o p b.
Proof.
  intros l o [N W] [NO FO] LST p a. rewrite Forall_forall in W, FO. unfold exclude. split.
  - intros H. apply leaf_in in H as [g [J H]]. apply in_flat_map in J as [f [JF JG]]. destruct (lookup (r_name f) o) as [y|] eqn:L.
    + apply (lookup_some _ _ _ NO) in L as [JY EY]. destruct (FO y JY) as [z [JZ SZ]]. assert (z = f) by (apply (same_name l); auto; rewrite <- (sub_name _ _ SZ); exact EY). subst z.
      destruct (fkind f) eqn:K; [|contradiction|contradiction]. assert (H' : leaf (opt_list (f_exclude f y)) p a) by (apply leaf_in; exists g; split; [destruct (f_exclude f y); exact JG|exact H]).
      apply (exclude_leaves f y (W f JF) SZ) in H' as [H1 H2]. split; [apply leaf_in; eauto|]. intros b HB. destruct (has_head _ _ _ (leaf_has _ _ _ H1)) as [r ->]. rewrite <- EY in HB. apply (has_head_iff o y r b NO JY) in HB. rewrite EY in HB. exact (H2 b HB).
    + destruct JG as [<-|[]]. split; [apply leaf_in; eauto|]. intros b HB. destruct (has_head _ _ _ (leaf_has _ _ _ H)) as [r ->]. apply lookup_none in L. apply L. destruct (has_name _ _ _ HB) as [y [r' [JY E]]]. injection E as -> _. apply in_map. exact JY.
  - intros [H D]. apply leaf_in in H as [f [JF H]]. apply leaf_in. destruct (lookup (r_name f) o) as [y|] eqn:L.
    + assert (L' := L). apply (lookup_some _ _ _ NO) in L' as [JY EY]. destruct (FO y JY) as [z [JZ SZ]]. assert (z = f) by (apply (same_name l); auto; rewrite <- (sub_name _ _ SZ); exact EY). subst z.
      destruct (LST f y JF JY EY) as [K|K]; [|exfalso; apply (D a); apply has_in; exists y; split; [exact JY|apply K, leaf_has; exact H]].
      assert (H' : leaf (opt_list (f_exclude f y)) p a). { apply (exclude_leaves f y (W f JF) SZ). split; [exact H|]. intros b HB. apply (D b). apply has_in. eauto. }
      apply leaf_in in H' as [g [JG H']]. exists g. split; [|exact H']. apply in_flat_map. exists f. rewrite L, K. split; [exact JF|]. destruct (f_exclude f y); exact JG.
    + exists f. split; [|exact H]. apply in_flat_map. exists f. rewrite L. split; [exact JF|left; reflexivity].
Qed.

Lemma exclude_sub : forall f o g, well f -> f_exclude f o = Some g -> sub g f.
Proof.
  induction f as [b c IH] using rfield_ind'. intros o g W E. inversion W as [? ? N K WC]; subst. rewrite Forall_forall in IH, WC. rewrite exclude_eq in E.
  set (F := fun x => opt_list (match lookup (r_name x) (r_children o) with Some y => f_exclude x y | None => Some x end)) in E.
  assert (SF : forall x z, In x c -> In z (F x) -> sub z x).
  { intros x z J JZ. unfold F in JZ. destruct (lookup (r_name x) (r_children o)) as [y|]; [destruct (f_exclude x y) eqn:EX; [|contradiction]; destruct JZ as [<-|[]]; eapply IH; eauto|destruct JZ as [<-|[]]; apply sub_refl; auto]. }
  assert (ONE : forall x, F x = [] \/ exists z, F x = [z]) by (intros x; unfold F; destruct (match lookup (r_name x) (r_children o) with Some y => f_exclude x y | None => Some x end); cbn; eauto).
  assert (S : subs (flat_map F c) c).
  { split.
    - clear E K W IH WC. induction c as [|x c IH]; [constructor|]. inversion N as [|? ? NI N']; subst. cbn [flat_map]. rewrite map_app. destruct (ONE x) as [EX|[z EX]]; rewrite EX; [apply IH; auto; intros; apply SF; [right|]; assumption|].
      cbn [map app]. constructor; [|apply IH; auto; intros; apply SF; [right|]; assumption]. assert (SZ : sub z x) by (apply SF; [left; reflexivity|rewrite EX; left; reflexivity]). rewrite (sub_name _ _ SZ). intros J. apply NI. apply in_map_iff in J as [y [EY J]]. apply in_flat_map in J as [w [J1 J2]]. apply in_map_iff. exists w. split; [|exact J1]. rewrite <- EY. symmetry. apply sub_name. apply SF; [right|]; assumption.
    - rewrite Forall_forall. intros z J. apply in_flat_map in J as [x [J1 J2]]. eauto. }
  destruct (flat_map F c) as [|x t] eqn:EF; [discriminate|]. injection E as <-. destruct S as [S1 S2]. constructor; auto. destruct (kind_of (a_type b)); auto; discriminate.
Qed.
Lemma exclude_subs : forall l o, schema_well l -> subs (exclude l o) l.
Proof.
  intros l o [N W]. rewrite Forall_forall in W. unfold exclude. set (F := fun f => match lookup (r_name f) o with Some y => match fkind f with KStruct => match f_exclude f y with Some z => [z] | None => [] end | _ => [] end | None => [f] end).
  assert (SF : forall x z, In x l -> In z (F x) -> sub z x).
  { intros x z J JZ. unfold F in JZ. destruct (lookup (r_name x) o) as [y|]; [|destruct JZ as [<-|[]]; apply sub_refl; auto]. destruct (fkind x); try contradiction. destruct (f_exclude x y) eqn:EX; [|contradiction]. destruct JZ as [<-|[]]. eapply exclude_sub; eauto. }
  assert (ONE : forall x, F x = [] \/ exists z, F x = [z]) by (intros x; unfold F; destruct (lookup (r_name x) o) as [y|]; [destruct (fkind x); auto; destruct (f_exclude x y); eauto|eauto]).
  split.
  - clear W. induction l as [|x l IH]; [constructor|]. inversion N as [|? ? NI N']; subst. cbn [flat_map]. rewrite map_app. destruct (ONE x) as [EX|[z EX]]; rewrite EX; [apply IH; auto; intros; apply SF; [right|]; assumption|].
    cbn [map app]. constructor; [|apply IH; auto; intros; apply SF; [right|]; assumption]. assert (SZ : sub z x) by (apply SF; [left; reflexivity|rewrite EX; left; reflexivity]). rewrite (sub_name _ _ SZ). intros J. apply NI. apply in_map_iff in J as [y [EY J]]. apply in_flat_map in J as [w [J1 J2]]. apply in_map_iff. exists w. split; [|exact J1]. rewrite <- EY. symmetry. apply sub_name. apply SF; [right|]; assumption.
  - rewrite Forall_forall. intros z J. apply in_flat_map in J as [x [J1 J2]]. eauto.
Qed.
(* a leaf belongs to a projection iff a named column is it or contains it *)
Lemma leaf_selected : forall l cols p a, schema_well l -> Forall (fun c => exists f, at_path l c f) cols -> leaf l p a -> (selected cols p <-> exists c, In c cols /\ prefix c p).
Proof.
  intros l cols p a W F L. apply (leaf_iff l p a W) in L as [H D]. rewrite Forall_forall in F. split; intros [c [J P]]; exists c; (split; [exact J|]); auto. destruct P as [P|P]; auto. destruct (F c J) as [f A]. rewrite (D c (r_attrs f)); [apply prefix_refl|exists f; auto|exact P].
Qed.
Lemma existing : forall l p (P : rfield -> bool), schema_well l -> (match field_at l p with Some f => P f | None => false end) = true <-> exists f, at_path l p f /\ P f = true.
Proof.
  intros l p P W. split.
  - destruct (field_at l p) as [f|] eqn:E; [|discriminate]. intros H. exists f. split; [apply field_at_path; auto|exact H].
  - intros [f [A H]]. apply (field_at_path p l f W) in A. rewrite A. exact H.
Qed.
Definition top_level (c : list string) : Prop := exists n, c = [n].
Theorem drop_columns_exact : forall l cols r, schema_well l -> drop_columns l cols = Ok r ->
  (forall c n q f, In c cols -> c = n :: q -> at_path l [n] f -> fkind f = KStruct \/ q = []) ->
  schema_well r /\ (forall p a, has r p a -> has l p a) /\ forall p a, leaf r p a <-> leaf l p a /\ ~ exists c, In c cols /\ prefix c p.
Proof.
  intros l cols r W E TOP. unfold drop_columns in E. match type of E with (if negb ?b then _ else _) = _ => destruct b eqn:B end; [|discriminate]. cbn [negb] in E. rewrite forallb_forall in B.
  assert (F : Forall (fun c => exists f, at_path l c f) cols). { rewrite Forall_forall. intros c J. apply B in J. apply (existing l c _ W) in J as [f [A _]]. eauto. }
  destruct (project_from_spec l true cols [] W F) as [o [EO [SO HO]]]; [split; constructor|]. unfold do_project in E. rewrite EO in E. cbn [obnd] in E.
  assert (HO' : forall p a, has o p a <-> has l p a /\ selected cols p) by (intros p a; rewrite HO; split; [intros [X|X]; [destruct (has_nil _ _ X)|exact X]|auto]). clear HO.
  assert (ER : r = exclude l o) by (destruct (exclude l o); [discriminate|injection E as <-; reflexivity]). subst r. assert (SE := exclude_subs l o W). split; [eapply subs_well; eauto|]. split; [intros p a; apply subs_has; exact SE|].
  intros p a. rewrite (exclude_exact l o W SO).
  - split; intros [L D]; (split; [exact L|]).
    + intros X. apply (leaf_selected l cols p a W F L) in X. apply (D a). apply HO'. split; [apply leaf_has; exact L|exact X].
    + intros b HB. apply D. apply (leaf_selected l cols p a W F L). apply (HO' p b). exact HB.
  - intros f y JF JY EY. assert (N := proj1 W). destruct (fkind f) eqn:K; [left; reflexivity| |]; right; intros q b H; destruct (has_head _ _ _ H) as [t ->]; rewrite <- EY; (apply (has_head_iff o y t b (proj1 SO) JY)); apply HO'; rewrite EY; (split; [apply has_in; eauto|]).
    all: assert (HY : has o [r_name f] (r_attrs y)) by (apply has_in; exists y; split; [exact JY|apply has_one; left; rewrite EY; auto]); apply HO' in HY as [_ [c [JC P]]].
    all: assert (A : at_path l [r_name f] f) by (constructor; exact JF).
    all: destruct c as [|n c]; [rewrite Forall_forall in F; destruct (F [] JC) as [g G]; destruct (at_nopath _ _ G)|]; assert (n = r_name f) by (destruct P as [P|P]; apply prefix_cons in P as [? _]; congruence); subst n; destruct (TOP _ _ _ f JC eq_refl A) as [X|X]; [congruence|]; subst c; exists [r_name f]; (split; [exact JC|]); right; apply prefix_cons; (split; [reflexivity|apply prefix_nil]).
Qed.
(* when it succeeds *)
Theorem drop_columns_ok : forall l cols, schema_well l -> (exists r, drop_columns l cols = Ok r) <->
  (Forall (fun c => exists f, at_path l c f /\ a_storage (r_attrs f) = SDefault) cols /\ forall o, do_project true l cols = Ok o -> exclude l o <> []).
Proof.
  intros l cols W. unfold drop_columns. match goal with |- context [negb ?b] => destruct b eqn:B end; cbn [negb].
  - rewrite forallb_forall in B. assert (F : Forall (fun c => exists f, at_path l c f /\ a_storage (r_attrs f) = SDefault) cols).
    { rewrite Forall_forall. intros c J. apply B in J. apply (existing l c _ W) in J as [f [A S]]. exists f. split; [exact A|]. destruct (a_storage (r_attrs f)); [reflexivity|discriminate]. }
    destruct (project_exact l true cols W) as [o [EO _]]; [eapply Forall_impl; [|exact F]; intros c [f [A _]]; eauto|]. rewrite EO. cbn [obnd]. split.
    + intros [r E]. split; [exact F|]. intros o' E'. injection E' as <-. intros X. rewrite X in E. discriminate.
    + intros [_ D]. specialize (D o eq_refl). destruct (exclude l o); [congruence|eauto].
  - split; [intros [r E]; discriminate|]. intros [F _]. exfalso. rewrite <- not_true_iff_false in B. apply B. apply forallb_forall. intros c J. rewrite Forall_forall in F. destruct (F c J) as [f [A S]]. apply (existing l c _ W). exists f. split; [exact A|]. rewrite S. reflexivity.
Qed.

(* ---- counterexamples and instances ---- *)
Definition at_ (n t : string) (i p : Z) : attrs := {| a_name := n; a_id := i; a_parent := p; a_type := t; a_meta := []; a_enc := None; a_null := true; a_dict := None; a_storage := SDefault |}.
Definition ex_schema : list rfield :=
  [ RF (at_ "a" "struct" 0 (-1)) [RF (at_ "b" "int32" 1 0) []; RF (at_ "c" "int32" 2 0) []];
    RF (at_ "l" "list.struct" 3 (-1)) [RF (at_ "item" "struct" 4 3) [RF (at_ "x" "int32" 5 4) []; RF (at_ "y" "int32" 6 4) []]];
    RF (at_ "z" "int64" 7 (-1)) [] ].
Lemma ex_schema_well : schema_well ex_schema.
Proof.
  split; [repeat constructor; cbn; intuition discriminate|]. repeat constructor; cbn; try (intuition discriminate). eexists; reflexivity.
Qed.
Lemma ex_schema_ids : NoDup (r_field_ids ex_schema).
Proof. vm_compute. repeat constructor; cbn; intuition discriminate. Qed.
Definition ca : list string := ["a"%string].
Definition cab : list string := ["a"%string; "b"%string].
Definition clx : list string := ["l"%string; "item"%string; "x"%string].
Definition cbad : list string := ["a"%string; "nope"%string].
Ltac here := eexists; apply field_at_path; [exact ex_schema_well|reflexivity].

(* adding a column and one of its children loses the other children *)
Theorem union_columns_refuted : exists l cols ids p a, schema_well l /\ NoDup (r_field_ids l) /\ Forall (fun c => exists f, at_path l c f) cols /\
  union_columns true l [] cols = Ok ids /\ has l p a /\ selected cols p /\ ~ has (to_schema l ids) p a.
Proof.
  exists ex_schema, [ca; cab]. eexists. exists ["a"%string; "c"%string], (at_ "c" "int32" 2 0). split; [exact ex_schema_well|]. split; [exact ex_schema_ids|]. split; [repeat constructor; here|]. split; [reflexivity|]. split; [eexists; split; [apply field_at_path; [exact ex_schema_well|reflexivity]|reflexivity]|]. split.
  - exists ca. split; [left; reflexivity|]. right. exists ["c"%string]. reflexivity.
  - intros [f [A _]]. apply field_at_path in A; [discriminate|]. apply by_ids_well. exact ex_schema_well.
Qed.
(* a missing child is no error *)
Theorem project_missing_refuted : exists l cols r, schema_well l /\ (exists c, In c cols /\ forall f, ~ at_path l c f) /\ do_project true l cols = Ok r /\ exists a, has r ["a"%string] a /\ a_type a = "struct"%string /\ leaf r ["a"%string] a.
Proof.
  exists ex_schema, [cbad], [RF (at_ "a" "struct" 0 (-1)) []]. split; [exact ex_schema_well|]. split; [exists cbad; split; [left; reflexivity|]; intros f A; apply field_at_path in A; [discriminate|exact ex_schema_well]|]. split; [reflexivity|]. exists (at_ "a" "struct" 0 (-1)). split; [|split; [reflexivity|]]; exists (RF (at_ "a" "struct" 0 (-1)) []); (split; [apply at_one; left; split; reflexivity|]); [reflexivity|split; reflexivity].
Qed.
(* ... and a panic for a list *)
Theorem project_panic_refuted : exists l cols, schema_well l /\ do_project true l cols = Panic.
Proof. exists ex_schema, [["l"%string; "nope"%string]; ["l"%string]]. split; [exact ex_schema_well|reflexivity]. Qed.
(* dropping a column inside a list drops the list *)
Theorem drop_columns_refuted : exists l cols r p a, schema_well l /\ drop_columns l cols = Ok r /\ leaf l p a /\ (forall c, In c cols -> ~ prefix c p) /\ ~ leaf r p a.
Proof.
  exists ex_schema, [clx]. eexists. exists ["l"%string; "item"%string; "y"%string], (at_ "y" "int32" 6 4). split; [exact ex_schema_well|]. split; [reflexivity|]. split; [eexists; split; [apply field_at_path; [exact ex_schema_well|reflexivity]|split; reflexivity]|]. split.
  - intros c [<-|[]] [x E]. discriminate.
  - intros L. apply leaf_has in L. destruct (has_name _ _ _ L) as [f [q [J E]]]. cbn in J. destruct J as [<-|[<-|[]]]; discriminate.
Qed.
Example project_instance : Forall (fun c => exists f, at_path ex_schema c f) [clx; cab; ["l"%string; "item"%string; "y"%string]] /\
  do_project true ex_schema [clx; cab; ["l"%string; "item"%string; "y"%string]] =
  Ok [RF (at_ "l" "list.struct" 3 (-1)) [RF (at_ "item" "struct" 4 3) [RF (at_ "x" "int32" 5 4) []; RF (at_ "y" "int32" 6 4) []]]; RF (at_ "a" "struct" 0 (-1)) [RF (at_ "b" "int32" 1 0) []]].
Proof. split; [repeat constructor; here|reflexivity]. Qed.
Example union_instance : exists ids, union_columns true ex_schema [] [clx; cab] = Ok ids /\
  to_schema ex_schema ids = [RF (at_ "a" "struct" 0 (-1)) [RF (at_ "b" "int32" 1 0) []]; RF (at_ "l" "list.struct" 3 (-1)) [RF (at_ "item" "struct" 4 3) [RF (at_ "x" "int32" 5 4) []]]].
Proof. eexists. split; reflexivity. Qed.
Example drop_instance : drop_columns ex_schema [cab; ["z"%string]] =
  Ok [RF (at_ "a" "struct" 0 (-1)) [RF (at_ "c" "int32" 2 0) []]; RF (at_ "l" "list.struct" 3 (-1)) [RF (at_ "item" "struct" 4 3) [RF (at_ "x" "int32" 5 4) []; RF (at_ "y" "int32" 6 4) []]]].
Proof. reflexivity. Qed.
