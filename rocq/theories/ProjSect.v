(* C92: the intersection of projections. *)
From Coq Require Import List Arith ZArith Bool Lia String.
From Verif Require Import Lib ReadParamsModel SchemaModel SchemaProofs ProjModel ProjProofs ProjIds ProjDrop.
Import ListNotations.
Open Scope list_scope.

Lemma child_has : forall l p f x t, at_path l p f -> r_children f = x :: t -> has l (p ++ [r_name x]) (r_attrs x).
Proof.
  intros l p f x t A C. exists x. split; [|reflexivity]. induction A as [l f J|l f p g J A IH]; cbn [app]; (eapply at_below; [exact J|]); [constructor; rewrite C; left; reflexivity|exact (IH C)].
Qed.
Lemma below_selected : forall cols c q y, In c cols -> prefix c q -> selected cols (q ++ [y]).
Proof. intros cols c q y J P. exists c. split; [exact J|]. right. eapply prefix_trans; [exact P|eexists; reflexivity]. Qed.
(* the columns of both, if columns of the first and the second that are in one top level field lie on one path *)
Theorem intersect_exact : forall l cols1 cols2 r1 r2, schema_well l -> NoDup (r_field_ids l) -> Forall (fun c => exists f, at_path l c f) (cols1 ++ cols2) ->
  (forall n c1 c2, In (n :: c1) cols1 -> In (n :: c2) cols2 -> prefix c1 c2 \/ prefix c2 c1) ->
  projects l cols1 r1 -> projects l cols2 r2 ->
  forall p a, has (to_schema l (intersect (r_field_ids r1) (r_field_ids r2))) p a <-> has l p a /\ selected cols1 p /\ selected cols2 p.
Proof.
  intros l cols1 cols2 r1 r2 W N F T P1 P2 p a. unfold to_schema. set (ids := intersect (r_field_ids r1) (r_field_ids r2)). rewrite Forall_forall in F.
  assert (M : forall q, marked ids l q <-> (exists a, has l q a) /\ selected cols1 q /\ selected cols2 q).
  { intros q. split.
    - intros [f [H J]]. apply filter_In in J as [J K]. apply memZ_iff in K.
      destruct (proj1 (marked_ids l cols1 r1 q N P1) (ex_intro _ f (conj H J))) as [X S]. destruct (proj1 (marked_ids l cols2 r2 q N P2) (ex_intro _ f (conj H K))) as [_ S2]. auto.
    - intros [X [S S2]]. destruct (proj2 (marked_ids l cols1 r1 q N P1) (conj X S)) as [f [H J]]. destruct (proj2 (marked_ids l cols2 r2 q N P2) (conj X S2)) as [g [H' K]].
      assert (g = f) by (eapply at_unique; eauto). subst g. exists f. split; [exact H|]. apply filter_In. split; [exact J|]. apply memZ_iff. exact K. }
  assert (ALONG : forall c q, In c (cols1 ++ cols2) -> prefix q c -> q <> c -> exists y, prefix (q ++ [y]) c /\ exists b, has l (q ++ [y]) b).
  { intros c q J P NE. destruct (prefix_step q c P NE) as [y PY]. exists y. split; [exact PY|]. destruct (F c J) as [f A]. apply (has_prefix l (q ++ [y]) c (r_attrs f)); [exists f; auto|exact PY|apply snoc_ne]. }
  assert (DOWN : forall q b, has l q b -> marked ids l q -> (forall q' b', has l q' b' -> prefix q q' -> q' = q) \/ exists y, marked ids l (q ++ [y])).
  { intros q b H MQ. apply M in MQ as [X [[c1 [J1 S1]] [c2 [J2 S2]]]]. assert (K1 : In c1 (cols1 ++ cols2)) by (apply in_or_app; auto). assert (K2 : In c2 (cols1 ++ cols2)) by (apply in_or_app; auto).
    assert (NQ : q <> []) by (intros ->; destruct (has_nopath _ _ H)).
    assert (D1 : prefix c1 q \/ prefix q c1 /\ q <> c1) by (destruct S1 as [S1|S1]; [|auto]; destruct (list_eq_dec string_dec q c1) as [->|NE]; [left; apply prefix_refl|auto]).
    assert (D2 : prefix c2 q \/ prefix q c2 /\ q <> c2) by (destruct S2 as [S2|S2]; [|auto]; destruct (list_eq_dec string_dec q c2) as [->|NE]; [left; apply prefix_refl|auto]).
    destruct D1 as [D1|[D1 E1]], D2 as [D2|[D2 E2]].
    - destruct H as [f [A EF]]. destruct (r_children f) as [|x t] eqn:C; [left; apply (leaf_iff l q (r_attrs f) W); exists f; auto|]. right. exists (r_name x). apply M. split; [exists (r_attrs x); eapply child_has; eauto|]. split; eapply below_selected; eauto.
    - right. destruct (ALONG c2 q K2 D2 E2) as [y [PY HY]]. exists y. apply M. split; [exact HY|]. split; [eapply below_selected; eauto|exists c2; auto].
    - right. destruct (ALONG c1 q K1 D1 E1) as [y [PY HY]]. exists y. apply M. split; [exact HY|]. split; [exists c1; auto|eapply below_selected; eauto].
    - right. assert (CM : prefix c1 c2 \/ prefix c2 c1).
      { destruct q as [|n q]; [congruence|]. destruct c1 as [|n1 c1]; [apply prefix_of_nil in D1; discriminate|]. destruct c2 as [|n2 c2]; [apply prefix_of_nil in D2; discriminate|].
        apply prefix_cons in D1 as [-> D1]. apply prefix_cons in D2 as [-> D2]. destruct (T _ _ _ J1 J2) as [Y|Y]; [left|right]; apply prefix_cons; auto. }
      destruct CM as [CM|CM].
      + destruct (ALONG c1 q K1 D1 E1) as [y [PY HY]]. exists y. apply M. split; [exact HY|]. split; [exists c1; auto|exists c2; split; [exact J2|left; eapply prefix_trans; eauto]].
      + destruct (ALONG c2 q K2 D2 E2) as [y [PY HY]]. exists y. apply M. split; [exact HY|]. split; [exists c1; split; [exact J1|left; eapply prefix_trans; eauto]|exists c2; auto]. }
  rewrite (by_ids_exact ids false l W p a). split; intros [H K]; (split; [exact H|]).
  - destruct K as [[q [P MQ]]|[q [P [MQ [X|X]]]]]; [|discriminate|].
    + apply M in MQ as [_ [S1 S2]]. split; eapply not_selected_below; eauto.
    + assert (E : p = q); [|subst q; apply M in MQ; apply MQ]. destruct (has_prefix l q p a H P) as [b HB]; [intros ->; destruct (marked_nopath _ _ MQ)|].
      destruct (DOWN q b HB MQ) as [DL|[y MY]]; [apply (DL p a H P)|]. exfalso. apply (snoc_neq q y). apply X; [eexists; reflexivity|exact MY].
  - left. exists p. split; [apply prefix_refl|]. apply M. split; [eauto|exact K].
Qed.
(* two children of a struct have nothing in common, but the whole struct is selected *)
Theorem intersect_refuted : exists l cols1 cols2 r1 r2 p a, schema_well l /\ NoDup (r_field_ids l) /\ Forall (fun c => exists f, at_path l c f) (cols1 ++ cols2) /\
  do_project true l cols1 = Ok r1 /\ do_project true l cols2 = Ok r2 /\
  leaf (to_schema l (intersect (r_field_ids r1) (r_field_ids r2))) p a /\ ~ selected cols2 p.
Proof.
  exists ex_schema, [cab], [["a"%string; "c"%string]]. do 2 eexists. exists cab, (at_ "b" "int32" 1 0). split; [exact ex_schema_well|]. split; [exact ex_schema_ids|]. split; [repeat constructor; here|]. split; [reflexivity|]. split; [reflexivity|]. split.
  - eexists. split; [apply field_at_path; [apply by_ids_well; exact ex_schema_well|reflexivity]|split; reflexivity].
  - intros [c [[<-|[]] [[x E]|[x E]]]]; discriminate.
Qed.
Example intersect_instance : Forall (fun c => exists f, at_path ex_schema c f) ([ca; clx] ++ [cab; ["z"%string]]) /\
  (forall n c1 c2, In (n :: c1) [ca; clx] -> In (n :: c2) [cab; ["z"%string]] -> prefix c1 c2 \/ prefix c2 c1) /\
  exists r1 r2, do_project true ex_schema [ca; clx] = Ok r1 /\ do_project true ex_schema [cab; ["z"%string]] = Ok r2 /\
  to_schema ex_schema (intersect (r_field_ids r1) (r_field_ids r2)) = [RF (at_ "a" "struct" 0 (-1)) [RF (at_ "b" "int32" 1 0) []]].
Proof.
  split; [repeat constructor; here|]. split.
  - intros n c1 c2 [E|[E|[]]] [E'|[E'|[]]]; injection E as <- <-; try discriminate; injection E' as <-. left. apply prefix_nil.
  - do 2 eexists. repeat split; reflexivity.
Qed.
(* the operations on projections are those on their schemas *)
Theorem union_projection_is : forall l cols1 cols2 r1 r2, schema_well l -> NoDup (r_field_ids l) -> Forall (fun c => exists f, at_path l c f) (cols1 ++ cols2) ->
  projects l cols1 r1 -> projects l cols2 r2 -> projects l (cols1 ++ cols2) (to_schema l (union_projection (r_field_ids r1) (r_field_ids r2))).
Proof. exact union_schema_exact. Qed.
Theorem subtract_projection_is : forall l cols1 cols2 r1 r2, schema_well l -> NoDup (r_field_ids l) -> Forall (fun c => exists f, at_path l c f) cols1 ->
  projects l cols1 r1 -> projects l cols2 r2 ->
  forall p a, leaf (to_schema l (subtract_projection (r_field_ids r1) (r_field_ids r2))) p a <-> leaf l p a /\ selected cols1 p /\ ~ selected cols2 p.
Proof. exact subtract_schema_exact. Qed.
