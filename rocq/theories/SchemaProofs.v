From Coq Require Import List Arith NArith ZArith Bool Lia String.
From Verif Require Import Lib SchemaModel.
Import ListNotations.
Local Open Scope Z_scope.

(** * Induction over field trees *)
Lemma rfield_ind' : forall P : rfield -> Prop,
  (forall a c, Forall P c -> P (RF a c)) -> forall f, P f.
Proof.
  intros P H. fix IH 1. intros [a c]. apply H. induction c as [|x t IHc]; constructor; [apply IH|exact IHc].
Qed.

(** * Specification *)

(* every field names its parent; a field with children has a real id *)
Inductive placed : Z -> rfield -> Prop :=
| placed_intro : forall p a c, a_parent a = p -> (c = [] \/ a_id a <> -1) -> Forall (placed (a_id a)) c -> placed p (RF a c).
(* a value array is kept outside the protobuf *)
Definition no_values (a : attrs) : attrs :=
  {| a_name := a_name a; a_id := a_id a; a_parent := a_parent a; a_type := a_type a; a_meta := a_meta a;
     a_enc := a_enc a; a_null := a_null a;
     a_dict := omap (fun d => {| di_offset := di_offset d; di_length := di_length d; di_values := None |}) (a_dict a);
     a_storage := a_storage a |}.
Fixpoint strip (f : rfield) : rfield := match f with RF a c => RF (no_values a) (map strip c) end.
Definition dict_ok (a : attrs) : Prop := forall d, a_dict a = Some d -> (di_offset d < two64)%N /\ (di_length d < two64)%N.
Definition schema_ok (l : list rfield) : Prop :=
  Forall (placed (-1)) l /\ NoDup (r_field_ids l) /\ Forall (fun f => dict_ok (r_attrs f)) (fields_pre_order l).

(** * One field *)
Lemma as_usize_i64 : forall n, (n < two64)%N -> as_usize (as_i64 n) = n.
Proof.
  intros n H. unfold as_usize, as_i64, two63, two64 in *.
  destruct (N.ltb_spec n 9223372036854775808).
  - rewrite Z.mod_small by lia. apply N2Z.id.
  - replace (Z.of_N n - Z.of_N 18446744073709551616) with (Z.of_N n + (-1) * Z.of_N 18446744073709551616) by lia.
    rewrite Z.mod_add by lia. rewrite Z.mod_small by lia. apply N2Z.id.
Qed.
Lemma sm_insert_same : forall m k v, sm_get k m = Some v -> sm_insert k v m = m.
Proof.
  induction m as [|[k' w] t IH]; intros k v H; cbn in *; [discriminate|].
  destruct (String.eqb_spec k' k) as [->|]; [injection H as ->; reflexivity|]. rewrite IH; auto.
Qed.
Lemma dec_enc_field : forall a, dict_ok a -> dec_field (enc_field a) = Some (no_values a).
Proof.
  intros [nm id pa ty me en nu di st] D. unfold dec_field, enc_field, no_values. cbn.
  replace (dec_storage _) with (Some st) by (destruct st; reflexivity). cbn. f_equal. f_equal.
  - unfold extension_name. cbn. destruct (sm_get ext_key me) eqn:E; [|reflexivity].
    destruct (String.eqb_spec s EmptyString); [reflexivity|]. apply sm_insert_same. exact E.
  - destruct en as [[]|]; reflexivity.
  - destruct di as [d|]; [|reflexivity]. cbn. unfold dec_dict, enc_dict. cbn.
    destruct (D d eq_refl). rewrite !as_usize_i64 by assumption. reflexivity.
Qed.

(** * Rebuilding the tree *)
Lemma push_in_eq : forall p c a ch, push_in p c (RF a ch) = if a_id a =? p then Some (RF a (ch ++ [c])) else omap (RF a) (push_at p c ch).
Proof.
  intros p c a ch. cbn [push_in]. destruct (a_id a =? p); [reflexivity|]. f_equal.
  induction ch as [|x t IH]; cbn [push_at]; [reflexivity|]. destruct (push_in p c x); [reflexivity|]. rewrite <- IH. reflexivity.
Qed.
Lemma pre_order_eq : forall a c, pre_order (RF a c) = RF a c :: fields_pre_order c.
Proof. reflexivity. Qed.
Lemma ids_cons : forall a c t, r_field_ids (RF a c :: t) = a_id a :: r_field_ids c ++ r_field_ids t.
Proof.
  intros. unfold r_field_ids, fields_pre_order. cbn [flat_map]. rewrite pre_order_eq. cbn [map app]. rewrite map_app. reflexivity.
Qed.
Lemma ids_app : forall l1 l2, r_field_ids (l1 ++ l2) = r_field_ids l1 ++ r_field_ids l2.
Proof. intros. unfold r_field_ids, fields_pre_order. rewrite flat_map_app, map_app. reflexivity. Qed.
Lemma ids_nil : r_field_ids [] = [].
Proof. reflexivity. Qed.
Local Opaque r_field_ids.

Lemma push_absent : forall f p c, ~ In p (r_field_ids [f]) -> push_in p c f = None.
Proof.
  induction f as [a ch IH] using rfield_ind'. intros p c H. rewrite push_in_eq. rewrite ids_cons in H.
  destruct (Z.eqb_spec (a_id a) p) as [E|E]; [exfalso; apply H; left; exact E|].
  assert (Hc : ~ In p (r_field_ids ch)) by (intros X; apply H; right; apply in_or_app; left; exact X). clear H.
  replace (push_at p c ch) with (@None (list rfield)); [reflexivity|]. symmetry.
  induction IH as [|x t Hx Ht IHt]; cbn [push_at]; [reflexivity|].
  change (x :: t) with ([x] ++ t) in Hc. rewrite ids_app in Hc.
  rewrite Hx by (intros X; apply Hc, in_or_app; left; exact X).
  rewrite IHt by (intros X; apply Hc, in_or_app; right; exact X). reflexivity.
Qed.
Lemma push_at_absent : forall l p c, ~ In p (r_field_ids l) -> push_at p c l = None.
Proof.
  induction l as [|x t IH]; intros p c H; cbn [push_at]; [reflexivity|].
  change (x :: t) with ([x] ++ t) in H. rewrite ids_app in H.
  rewrite push_absent by (intros X; apply H, in_or_app; left; exact X).
  rewrite IH by (intros X; apply H, in_or_app; right; exact X). reflexivity.
Qed.
Lemma push_at_snoc : forall l p c x, ~ In p (r_field_ids l) -> push_at p c (l ++ [x]) = omap (fun x' => l ++ [x']) (push_in p c x).
Proof.
  induction l as [|y t IH]; intros p c x H; cbn [push_at app].
  - destruct (push_in p c x); reflexivity.
  - change (y :: t) with ([y] ++ t) in H. rewrite ids_app in H.
    rewrite push_absent by (intros X; apply H, in_or_app; left; exact X).
    rewrite IH by (intros X; apply H, in_or_app; right; exact X). destruct (push_in p c x); reflexivity.
Qed.

(* whether a parent is found does not depend on what is pushed *)
Lemma push_in_none : forall g p c c', push_in p c g = None -> push_in p c' g = None.
Proof.
  induction g as [d e IHe] using rfield_ind'. intros p c c'. rewrite !push_in_eq. destruct (a_id d =? p); [discriminate|].
  destruct (push_at p c e) eqn:Q; [discriminate|]. intros _. replace (push_at p c' e) with (@None (list rfield)); [reflexivity|]. symmetry.
  revert Q. induction IHe as [|y u Hy Hu IHu]; cbn [push_at]; intros Q; [reflexivity|].
  destruct (push_in p c y) eqn:Y; [discriminate|]. rewrite (Hy _ _ _ Y). destruct (push_at p c u) eqn:U; [discriminate|].
  rewrite IHu by reflexivity. reflexivity.
Qed.
Lemma push_at_none : forall l p c c', push_at p c l = None -> push_at p c' l = None.
Proof.
  induction l as [|x t IH]; intros p c c'; cbn [push_at]; [reflexivity|].
  destruct (push_in p c x) eqn:X; [discriminate|]. rewrite (push_in_none _ _ _ c' X).
  destruct (push_at p c t) eqn:T; [discriminate|]. rewrite (IH _ _ c' T). reflexivity.
Qed.

(* pushing a child under a node that was itself just pushed *)
Lemma push_push_in : forall f p a ks k f1, ~ In (a_id a) (r_field_ids [f]) ->
  push_in p (RF a ks) f = Some f1 -> push_in (a_id a) k f1 = push_in p (RF a (ks ++ [k])) f.
Proof.
  induction f as [b ch IH] using rfield_ind'. intros p a ks k f1 H. rewrite !push_in_eq. rewrite ids_cons in H.
  assert (Hb : a_id b <> a_id a) by (intros X; apply H; left; exact X).
  assert (Hc : ~ In (a_id a) (r_field_ids ch)) by (intros X; apply H; right; apply in_or_app; left; exact X). clear H.
  destruct (Z.eqb_spec (a_id b) p) as [E|E].
  - intros [= <-]. rewrite push_in_eq. destruct (Z.eqb_spec (a_id b) (a_id a)) as [X|_]; [contradiction|].
    rewrite push_at_snoc by exact Hc. rewrite push_in_eq, Z.eqb_refl. reflexivity.
  - destruct (push_at p (RF a ks) ch) as [ch1|] eqn:P; [|discriminate]. cbn. intros [= <-]. rewrite push_in_eq.
    destruct (Z.eqb_spec (a_id b) (a_id a)) as [X|_]; [contradiction|]. f_equal. clear E Hb.
    revert ch1 P Hc. induction IH as [|x t Hx Ht IHt]; intros ch1 P Hc; cbn [push_at] in P |- *; [discriminate|].
    change (x :: t) with ([x] ++ t) in Hc. rewrite ids_app in Hc.
    assert (Hcx : ~ In (a_id a) (r_field_ids [x])) by (intros X; apply Hc, in_or_app; left; exact X).
    assert (Hct : ~ In (a_id a) (r_field_ids t)) by (intros X; apply Hc, in_or_app; right; exact X).
    destruct (push_in p (RF a ks) x) as [x1|] eqn:Px.
    + injection P as <-. cbn [push_at]. rewrite (Hx _ _ _ _ _ Hcx Px).
      destruct (push_in p (RF a (ks ++ [k])) x) eqn:Q; [reflexivity|].
      rewrite (push_in_none _ _ _ (RF a ks) Q) in Px. discriminate.
    + destruct (push_at p (RF a ks) t) as [t1|] eqn:Pt; [|discriminate]. injection P as <-. cbn [push_at].
      rewrite push_absent by exact Hcx. rewrite (push_in_none _ _ _ (RF a (ks ++ [k])) Px). f_equal. apply IHt; [reflexivity|exact Hct].
Qed.
Lemma push_push_at : forall l p a ks k l1, ~ In (a_id a) (r_field_ids l) ->
  push_at p (RF a ks) l = Some l1 -> push_at (a_id a) k l1 = push_at p (RF a (ks ++ [k])) l.
Proof.
  induction l as [|x t IH]; intros p a ks k l1 H P; cbn [push_at] in P |- *; [discriminate|].
  change (x :: t) with ([x] ++ t) in H. rewrite ids_app in H.
  assert (Hx : ~ In (a_id a) (r_field_ids [x])) by (intros X; apply H, in_or_app; left; exact X).
  assert (Ht : ~ In (a_id a) (r_field_ids t)) by (intros X; apply H, in_or_app; right; exact X).
  destruct (push_in p (RF a ks) x) as [x1|] eqn:Px.
  - injection P as <-. cbn [push_at]. rewrite (push_push_in _ _ _ _ _ _ Hx Px).
    destruct (push_in p (RF a (ks ++ [k])) x) eqn:Q; [reflexivity|].
    rewrite (push_in_none _ _ _ (RF a ks) Q) in Px. discriminate.
  - destruct (push_at p (RF a ks) t) as [t1|] eqn:Pt; [|discriminate]. injection P as <-. cbn [push_at].
    rewrite push_absent by exact Hx. rewrite (push_in_none _ _ _ (RF a (ks ++ [k])) Px). f_equal. eapply IH; eassumption.
Qed.

(* ids after a push *)
Lemma push_in_ids : forall f p c f1 i, push_in p c f = Some f1 -> In i (r_field_ids [f1]) -> In i (r_field_ids [f]) \/ In i (r_field_ids [c]).
Proof.
  induction f as [a ch IH] using rfield_ind'. intros p c f1 i. rewrite push_in_eq.
  destruct (a_id a =? p).
  - intros [= <-]. rewrite !ids_cons, ids_app. cbn [In]. rewrite !in_app_iff. tauto.
  - destruct (push_at p c ch) as [ch1|] eqn:P; [|discriminate]. intros [= <-]. rewrite !ids_cons, !ids_nil, !app_nil_r. cbn [In].
    intros [H|H]; [tauto|]. enough (In i (r_field_ids ch) \/ In i (r_field_ids [c])) by tauto.
    revert ch1 P H. induction IH as [|x t Hx Ht IHt]; intros ch1 P H; cbn [push_at] in P; [discriminate|].
    change (x :: t) with ([x] ++ t). rewrite ids_app, in_app_iff.
    destruct (push_in p c x) as [x1|] eqn:Px.
    + injection P as <-. change (x1 :: t) with ([x1] ++ t) in H. rewrite ids_app, in_app_iff in H. destruct H as [H|H]; [|tauto].
      destruct (Hx _ _ _ _ Px H); tauto.
    + destruct (push_at p c t) as [t1|] eqn:Pt; [|discriminate]. injection P as <-. change (x :: t1) with ([x] ++ t1) in H.
      rewrite ids_app, in_app_iff in H. destruct H as [H|H]; [tauto|]. destruct (IHt _ eq_refl H); tauto.
Qed.
Lemma push_at_ids : forall l p c l1 i, push_at p c l = Some l1 -> In i (r_field_ids l1) -> In i (r_field_ids l) \/ In i (r_field_ids [c]).
Proof.
  induction l as [|x t IH]; intros p c l1 i P H; cbn [push_at] in P; [discriminate|].
  change (x :: t) with ([x] ++ t). rewrite ids_app, in_app_iff.
  destruct (push_in p c x) as [x1|] eqn:Px.
  - injection P as <-. change (x1 :: t) with ([x1] ++ t) in H. rewrite ids_app, in_app_iff in H. destruct H as [H|H]; [|tauto].
    destruct (push_in_ids _ _ _ _ _ Px H); tauto.
  - destruct (push_at p c t) as [t1|] eqn:Pt; [|discriminate]. injection P as <-. change (x :: t1) with ([x] ++ t1) in H.
    rewrite ids_app, in_app_iff in H. destruct H as [H|H]; [tauto|]. destruct (IH _ _ _ _ Pt H); tauto.
Qed.

(* where a field with parent p goes *)
Definition place (p : Z) (c : rfield) (l : list rfield) : option (list rfield) := if p =? -1 then Some (l ++ [c]) else push_at p c l.
Lemma place_place : forall l p a ks k l1, ~ In (a_id a) (r_field_ids l) -> a_id a <> -1 ->
  place p (RF a ks) l = Some l1 -> place (a_id a) k l1 = place p (RF a (ks ++ [k])) l.
Proof.
  intros l p a ks k l1 H N P. unfold place in *. destruct (Z.eqb_spec (a_id a) (-1)) as [E|_]; [contradiction|].
  destruct (p =? -1).
  - injection P as <-. rewrite push_at_snoc by exact H. rewrite push_in_eq, Z.eqb_refl. reflexivity.
  - eapply push_push_at; eassumption.
Qed.
Lemma place_ids : forall l p c l1 i, place p c l = Some l1 -> In i (r_field_ids l1) -> In i (r_field_ids l) \/ In i (r_field_ids [c]).
Proof.
  intros l p c l1 i P H. unfold place in P. destruct (p =? -1).
  - injection P as <-. rewrite ids_app, in_app_iff in H. exact H.
  - eapply push_at_ids; eassumption.
Qed.
Lemma place_some : forall l p c c' l1, place p c l = Some l1 -> exists l2, place p c' l = Some l2.
Proof.
  intros l p c c' l1 P. unfold place in *. destruct (p =? -1); [eauto|].
  destruct (push_at p c' l) eqn:Q; [eauto|]. rewrite (push_at_none _ _ _ c Q) in P. discriminate.
Qed.
Lemma add_proto_place : forall l a, dict_ok a -> add_proto l (enc_field a) = place (a_parent a) (RF (no_values a) []) l.
Proof. intros l a D. unfold add_proto. rewrite dec_enc_field by exact D. reflexivity. Qed.
Lemma add_protos_app : forall ps l qs, add_protos l (ps ++ qs) = obind (add_protos l ps) (fun l' => add_protos l' qs).
Proof. induction ps as [|p t IH]; intros l qs; cbn; [reflexivity|]. destruct (add_proto l p); cbn; [apply IH|reflexivity]. Qed.

Lemma strip_ids_one : forall f, r_field_ids [strip f] = r_field_ids [f].
Proof.
  induction f as [a c IH] using rfield_ind'. cbn [strip]. rewrite !ids_cons, !ids_nil, !app_nil_r. cbn [no_values a_id]. f_equal.
  induction IH as [|x t Hx Ht IHt]; [reflexivity|]. cbn [map]. change (strip x :: map strip t) with ([strip x] ++ map strip t).
  change (x :: t) with ([x] ++ t). rewrite !ids_app, Hx, IHt. reflexivity.
Qed.
Lemma strip_ids : forall l, r_field_ids (map strip l) = r_field_ids l.
Proof.
  induction l as [|x t IH]; [reflexivity|]. cbn [map]. change (strip x :: map strip t) with ([strip x] ++ map strip t).
  change (x :: t) with ([x] ++ t). rewrite !ids_app, strip_ids_one, IH. reflexivity.
Qed.
Lemma NoDup_app_l : forall (A : Type) (l1 l2 : list A), NoDup (l1 ++ l2) -> NoDup l1 /\ NoDup l2 /\ forall x, In x l1 -> ~ In x l2.
Proof.
  induction l1 as [|x t IH]; intros l2 H; cbn in *; [split; [constructor|split; [exact H|tauto]]|].
  inversion H as [|? ? H1 H2]; subst. destruct (IH _ H2) as (A1 & A2 & A3). split; [|split; [exact A2|]].
  - constructor; [|exact A1]. intros X. apply H1, in_or_app. left. exact X.
  - intros y [<-|Y]; [|apply A3; exact Y]. intros X. apply H1, in_or_app. right. exact X.
Qed.

Lemma rebuild_field : forall f p l l1, placed p f -> NoDup (r_field_ids [f]) ->
  Forall (fun g => dict_ok (r_attrs g)) (pre_order f) -> (forall i, In i (r_field_ids [f]) -> ~ In i (r_field_ids l)) ->
  place p (strip f) l = Some l1 -> add_protos l (field_protos f) = Some l1.
Proof.
  induction f as [a c IH] using rfield_ind'. intros p l l1 Pl ND D Fr P.
  inversion Pl as [? ? ? HP HI HC]; subst. rewrite pre_order_eq in D. inversion D as [|? ? D1 D2]; subst. cbn [r_attrs] in D1.
  rewrite ids_cons, ids_nil, app_nil_r in ND, Fr. inversion ND as [|? ? ND1 ND2]; subst.
  cbn [field_protos add_protos strip] in *. rewrite add_proto_place by exact D1.
  destruct (place_some _ _ _ (RF (no_values a) []) _ P) as [l0 P0]. rewrite P0. cbn [obind].
  enough (G : forall cs ks l0 l1, Forall (fun g => In g c) cs ->
             place (a_parent a) (RF (no_values a) ks) l = Some l0 -> place (a_parent a) (RF (no_values a) (ks ++ map strip cs)) l = Some l1 ->
             (forall i, In i (r_field_ids cs) -> ~ In i (r_field_ids ks)) -> NoDup (r_field_ids cs) ->
             (forall i, In i (r_field_ids cs) -> In i (r_field_ids c)) -> Forall (fun g => dict_ok (r_attrs g)) (fields_pre_order cs) ->
             add_protos l0 (flat_map field_protos cs) = Some l1).
  { apply (G c [] l0 l1); auto; try (apply Forall_forall; auto). }
  clear P P0 l0 l1 D D2. induction cs as [|k t IHt]; intros ks l0 l1 Hin P0 P1 Hk NDk Hsub D.
  - cbn [map flat_map add_protos] in *. rewrite app_nil_r in P1. rewrite P0 in P1. exact P1.
  - cbn [flat_map]. rewrite add_protos_app. inversion Hin as [|? ? K1 K2]; subst.
    change (k :: t) with ([k] ++ t) in Hk, NDk, Hsub. rewrite ids_app in Hk, NDk, Hsub.
    destruct (NoDup_app_l _ _ _ NDk) as (N1 & N2 & N3).
    unfold fields_pre_order in D. cbn [flat_map] in D. apply Forall_app in D. destruct D as [Dk Dt].
    assert (Hid : a_id (no_values a) <> -1) by (cbn; destruct HI as [->|HI]; [destruct K1|exact HI]).
    assert (Hfresh : ~ In (a_id (no_values a)) (r_field_ids l)) by (apply Fr; left; reflexivity).
    pose proof (place_place _ _ _ _ (strip k) _ Hfresh Hid P0) as PP.
    assert (EX : exists l2, place (a_parent a) (RF (no_values a) (ks ++ [strip k])) l = Some l2) by (eapply place_some; exact P0).
    destruct EX as [l2 P2]. rewrite P2 in PP. cbn [no_values a_id] in PP.
    rewrite (proj1 (Forall_forall _ _) IH k K1 (a_id a) l0 l2).
    + cbn [obind]. apply (IHt (ks ++ [strip k])); auto.
      * rewrite <- app_assoc. exact P1.
      * intros i Hi. rewrite ids_app, in_app_iff, strip_ids_one. intros [X|X]; [apply (Hk i); [apply in_or_app; right; exact Hi|exact X]|apply (N3 i); assumption].
      * intros i Hi. apply Hsub, in_or_app. right. exact Hi.
    + apply (proj1 (Forall_forall _ _) HC). exact K1.
    + exact N1.
    + exact Dk.
    + intros i Hi X. destruct (place_ids _ _ _ _ _ P0 X) as [Y|Y].
      * apply (Fr i); [right; apply Hsub, in_or_app; left; exact Hi|exact Y].
      * rewrite ids_cons, ids_nil, app_nil_r in Y. cbn [no_values a_id] in Y. destruct Y as [<-|Y].
        -- apply ND1, Hsub, in_or_app. left. exact Hi.
        -- apply (Hk i); [apply in_or_app; left; exact Hi|exact Y].
    + exact PP.
Qed.
Lemma rebuild_list : forall fs l, Forall (placed (-1)) fs -> NoDup (r_field_ids fs) ->
  Forall (fun g => dict_ok (r_attrs g)) (fields_pre_order fs) -> (forall i, In i (r_field_ids fs) -> ~ In i (r_field_ids l)) ->
  add_protos l (schema_protos fs) = Some (l ++ map strip fs).
Proof.
  induction fs as [|f t IH]; intros l P ND D Fr.
  - cbn. rewrite app_nil_r. reflexivity.
  - unfold schema_protos. cbn [flat_map]. rewrite add_protos_app. inversion P as [|? ? P1 P2]; subst.
    change (f :: t) with ([f] ++ t) in ND, Fr. rewrite ids_app in ND, Fr. destruct (NoDup_app_l _ _ _ ND) as (N1 & N2 & N3).
    unfold fields_pre_order in D. cbn [flat_map] in D. apply Forall_app in D. destruct D as [D1 D2].
    rewrite (rebuild_field f (-1) l (l ++ [strip f]) P1 N1 D1); [|intros i Hi; apply Fr, in_or_app; left; exact Hi|reflexivity].
    cbn [obind]. change (flat_map field_protos t) with (schema_protos t). rewrite IH; auto.
    + rewrite <- app_assoc. reflexivity.
    + intros i Hi. rewrite ids_app, in_app_iff, strip_ids_one. intros [X|X]; [apply (Fr i); [apply in_or_app; right; exact Hi|exact X]|apply (N3 i); assumption].
Qed.

(** * Round trip of a schema (C45) *)
Theorem schema_roundtrip : forall s, schema_ok (rs_fields s) ->
  dec_schema (enc_schema s) = Some {| rs_fields := map strip (rs_fields s); rs_meta := rs_meta s |}.
Proof.
  intros s (P & ND & D). unfold dec_schema, enc_schema, schema_of_protos. cbn [fst snd].
  rewrite rebuild_list; auto.
Qed.
Theorem schema_fields_roundtrip : forall s, schema_ok (rs_fields s) ->
  dec_fields_only (schema_protos (rs_fields s)) = Some {| rs_fields := map strip (rs_fields s); rs_meta := [] |}.
Proof. intros s (P & ND & D). unfold dec_fields_only, schema_of_protos. rewrite rebuild_list; auto. Qed.

(* without dictionary value arrays nothing is dropped *)
Definition no_arrays (l : list rfield) : Prop := forall f d, In f (fields_pre_order l) -> a_dict (r_attrs f) = Some d -> di_values d = None.
Lemma strip_id : forall f, (forall g d, In g (pre_order f) -> a_dict (r_attrs g) = Some d -> di_values d = None) -> strip f = f.
Proof.
  induction f as [a c IH] using rfield_ind'. intros H. cbn [strip]. f_equal.
  - destruct a as [nm id pa ty me en nu di st]. unfold no_values. cbn. f_equal. destruct di as [[o le v]|]; [|reflexivity]. cbn.
    specialize (H _ _ (or_introl eq_refl) eq_refl). cbn in H. subst v. reflexivity.
  - rewrite pre_order_eq in H. assert (Hc : forall g d, In g (fields_pre_order c) -> a_dict (r_attrs g) = Some d -> di_values d = None) by (intros g d X; apply H; right; exact X).
    clear H. induction IH as [|x t Hx Ht IHt]; [reflexivity|]. unfold fields_pre_order in Hc. cbn [flat_map map] in *. f_equal.
    + apply Hx. intros g d X. apply Hc, in_or_app. left. exact X.
    + apply IHt. intros g d X. apply Hc, in_or_app. right. exact X.
Qed.
Lemma strip_none : forall l, no_arrays l -> map strip l = l.
Proof.
  induction l as [|x t IH]; intros H; [reflexivity|]. unfold no_arrays, fields_pre_order in H. cbn [flat_map map] in *. f_equal.
  - apply strip_id. intros g d X. apply H, in_or_app. left. exact X.
  - apply IH. intros g d X. apply H, in_or_app. right. exact X.
Qed.

(** * Assigning field ids (schema.rs:494-501) *)
Lemma set_id_eq : forall p seed a c,
  set_id p seed (RF a c) =
  (let '(id, s1) := if a_id a <? 0 then (seed, seed + 1) else (a_id a, seed) in
   let '(c', s2) := set_id_list id s1 c in (RF (set_ids a id p) c', s2)).
Proof.
  intros. cbn [set_id]. destruct (if a_id a <? 0 then (seed, seed + 1) else (a_id a, seed)) as [id s1].
  match goal with |- (let '(_, _) := ?F c s1 in _) = _ => enough (H : forall l s, F l s = set_id_list id s l) by (rewrite H; reflexivity) end.
  induction l as [|x t IH]; intros s; cbn [set_id_list]; [reflexivity|]. destruct (set_id id s x) as [x' s'].
  rewrite IH. reflexivity.
Qed.
(* the tree without its ids *)
Fixpoint shape (f : rfield) : rfield := match f with RF a c => RF (set_ids a 0 0) (map shape c) end.
Definition kept (seed s' : Z) (o n : Z) : Prop := if o <? 0 then seed <= n < s' else n = o.
Definition given (l : list Z) : list Z := filter (fun i => 0 <=? i) l.

Lemma kept_mono : forall s1 s2 s3 s4 o n, kept s2 s3 o n -> s1 <= s2 -> s3 <= s4 -> kept s1 s4 o n.
Proof. unfold kept. intros. destruct (o <? 0); lia. Qed.
Lemma Forall2_mono : forall (A B : Type) (P Q : A -> B -> Prop) l l', (forall a b, P a b -> Q a b) -> Forall2 P l l' -> Forall2 Q l l'.
Proof. induction 2; constructor; auto. Qed.
Lemma given_app : forall a b, given (a ++ b) = given a ++ given b.
Proof. intros. unfold given. apply filter_app. Qed.
Lemma kept_In : forall seed s' l l' n, Forall2 (kept seed s') l l' -> In n l' -> In n (given l) \/ seed <= n < s'.
Proof.
  intros seed s' l l' n H. induction H as [|o m l l' K H IH]; cbn [In]; [tauto|].
  unfold given. cbn [filter]. unfold kept in K. destruct (Z.ltb_spec o 0).
  - destruct (Z.leb_spec 0 o); [lia|]. intros [<-|X]; [right; exact K|apply IH; exact X].
  - destruct (Z.leb_spec 0 o); [|lia]. intros [<-|X]; [left; left; symmetry; exact K|]. destruct (IH X); [left; right; assumption|right; assumption].
Qed.
Definition assigned (p seed s' : Z) (l l' : list rfield) : Prop :=
  seed <= s' /\ Forall (placed p) l' /\ map shape l' = map shape l /\
  Forall2 (kept seed s') (r_field_ids l) (r_field_ids l') /\
  (NoDup (given (r_field_ids l)) -> (forall i, In i (given (r_field_ids l)) -> i < seed) -> NoDup (r_field_ids l')).
Lemma NoDup_app_r : forall (A : Type) (l1 l2 : list A), NoDup l1 -> NoDup l2 -> (forall x, In x l1 -> ~ In x l2) -> NoDup (l1 ++ l2).
Proof.
  induction l1 as [|x t IH]; intros l2 H1 H2 H; cbn; [exact H2|]. inversion H1; subst. constructor.
  - rewrite in_app_iff. intros [X|X]; [contradiction|]. apply (H x); [left; reflexivity|exact X].
  - apply IH; auto. intros y Y. apply H. right. exact Y.
Qed.
Lemma given_In : forall i l, In i (given l) <-> In i l /\ 0 <= i.
Proof. intros. unfold given. rewrite filter_In, Z.leb_le. tauto. Qed.

Lemma assigned_cons : forall p s0 s1 s2 x x' t t', 0 <= s0 -> assigned p s0 s1 [x] [x'] -> assigned p s1 s2 t t' -> assigned p s0 s2 (x :: t) (x' :: t').
Proof.
  intros p s0 s1 s2 x x' t t' H0 (L1 & P1 & S1 & K1 & N1) (L2 & P2 & S2 & K2 & N2). repeat apply conj.
  - lia.
  - inversion P1; subst. constructor; assumption.
  - cbn [map] in *. injection S1 as S1. rewrite S1, S2. reflexivity.
  - change (x :: t) with ([x] ++ t). change (x' :: t') with ([x'] ++ t'). rewrite !ids_app. apply Forall2_app.
    + eapply Forall2_mono; [|exact K1]. intros. eapply kept_mono; [eassumption|lia|lia].
    + eapply Forall2_mono; [|exact K2]. intros. eapply kept_mono; [eassumption|lia|lia].
  - change (x :: t) with ([x] ++ t). change (x' :: t') with ([x'] ++ t'). rewrite !ids_app, given_app. intros ND Lt.
    destruct (NoDup_app_l _ _ _ ND) as (A & B & C). apply NoDup_app_r.
    + apply N1; [exact A|]. intros i Hi. apply Lt, in_or_app. left. exact Hi.
    + apply N2; [exact B|]. intros i Hi. specialize (Lt i (in_or_app _ _ _ (or_intror Hi))). lia.
    + intros i Hi Hi'. destruct (kept_In _ _ _ _ _ K1 Hi) as [X|X], (kept_In _ _ _ _ _ K2 Hi') as [Y|Y]; try lia.
      * apply (C i); assumption.
      * specialize (Lt i (in_or_app _ _ _ (or_introl X))). lia.
      * specialize (Lt i (in_or_app _ _ _ (or_intror Y))). lia.
Qed.
Lemma set_id_assigned : forall f p seed f' s', 0 <= seed -> set_id p seed f = (f', s') -> assigned p seed s' [f] [f'].
Proof.
  induction f as [a c IH] using rfield_ind'. intros p seed f' s' H0 E. rewrite set_id_eq in E.
  set (q := if a_id a <? 0 then (seed, seed + 1) else (a_id a, seed)) in E. destruct q as [id s1] eqn:Q.
  destruct (set_id_list id s1 c) as [c' s2] eqn:C. injection E as <- <-.
  assert (Hs1 : seed <= s1 /\ kept seed s1 (a_id a) id /\ 0 <= id).
  { unfold q in Q. unfold kept. destruct (Z.ltb_spec (a_id a) 0); injection Q as <- <-; lia. }
  destruct Hs1 as (Hs1 & Kid & Hid).
  assert (AC : assigned id s1 s2 c c').
  { assert (H1 : 0 <= s1) by lia. clear Q q Kid. revert s1 c' s2 C H1 Hs1. induction IH as [|x t Hx Ht IHt]; intros s1 c' s2 C H1 Hs1; cbn [set_id_list] in C.
    - injection C as <- <-. repeat apply conj; try (constructor || lia); auto; try (intros; constructor).
    - destruct (set_id id s1 x) as [x' sx] eqn:X. destruct (set_id_list id sx t) as [t' st] eqn:T. injection C as <- <-.
      pose proof (Hx _ _ _ _ H1 X) as AX. eapply assigned_cons; [exact H1|exact AX|].
      eapply IHt; [exact T| |]; destruct AX; lia. }
  destruct AC as (L & P & S & K & N). unfold assigned. repeat apply conj.
  - lia.
  - constructor; [|constructor]. constructor; [reflexivity| |exact P]. right. cbn. lia.
  - cbn [map shape]. rewrite S. unfold set_ids. cbn. reflexivity.
  - rewrite !ids_cons, !ids_nil, !app_nil_r. constructor.
    + eapply kept_mono; [exact Kid|lia|lia].
    + eapply Forall2_mono; [|exact K]. intros. eapply kept_mono; [eassumption|lia|lia].
  - rewrite !ids_cons, !ids_nil, !app_nil_r. intros ND Lt. cbn [set_ids a_id]. 
    assert (Sub : forall i, In i (given (r_field_ids c)) -> In i (given (a_id a :: r_field_ids c))).
    { intros i. rewrite !given_In. cbn. tauto. }
    constructor.
    + intros X. destruct (kept_In _ _ _ _ _ K X) as [Y|Y].
      * unfold kept in Kid. destruct (Z.ltb_spec (a_id a) 0) as [Ne|Ge].
        -- specialize (Lt _ (Sub _ Y)). lia.
        -- subst id. unfold given in ND. cbn [filter] in ND. destruct (Z.leb_spec 0 (a_id a)); [|lia]. inversion ND; contradiction.
      * unfold kept in Kid. destruct (Z.ltb_spec (a_id a) 0) as [Ne|Ge]; [lia|]. subst id.
        assert (Z : In (a_id a) (given (a_id a :: r_field_ids c))) by (apply given_In; split; [left; reflexivity|lia]). specialize (Lt _ Z). lia.
    + apply N.
      * unfold given in ND. cbn [filter] in ND. destruct (0 <=? a_id a); [inversion ND; assumption|exact ND].
      * intros i Hi. specialize (Lt _ (Sub _ Hi)). lia.
Qed.
Lemma set_id_list_assigned : forall l p seed l' s', 0 <= seed -> set_id_list p seed l = (l', s') -> assigned p seed s' l l'.
Proof.
  induction l as [|x t IH]; intros p seed l' s' H0 C; cbn [set_id_list] in C.
  - injection C as <- <-. repeat apply conj; try (constructor || lia); auto; try (intros; constructor).
  - destruct (set_id p seed x) as [x' sx] eqn:X. destruct (set_id_list p sx t) as [t' st] eqn:T. injection C as <- <-.
    pose proof (set_id_assigned _ _ _ _ _ H0 X) as AX. eapply assigned_cons; [exact H0|exact AX|].
    eapply IH; [|exact T]. destruct AX. lia.
Qed.

Lemma max_id_le : forall f i, In i (r_field_ids [f]) -> i <= max_id f.
Proof.
  induction f as [a c IH] using rfield_ind'. intros i. rewrite ids_cons, ids_nil, app_nil_r. cbn [max_id]. intros [<-|H]; [lia|].
  enough (i <= fold_right Z.max (-1) (map max_id c)) by lia.
  induction IH as [|x t Hx Ht IHt]; [destruct H|]. change (x :: t) with ([x] ++ t) in H. rewrite ids_app, in_app_iff in H.
  cbn [map fold_right]. destruct H as [H|H]; [specialize (Hx _ H); lia|specialize (IHt H); lia].
Qed.
Lemma fold_max_le : forall l b i, In i l -> i <= fold_right Z.max b l.
Proof. induction l as [|x t IH]; intros b i H; [destruct H|]. cbn. destruct H as [<-|H]; [lia|specialize (IH b _ H); lia]. Qed.
Lemma schema_max_le : forall l i, In i (r_field_ids l) -> i <= match schema_max_id l with Some m => m | None => -1 end.
Proof.
  intros l i H. assert (exists f, In f l /\ In i (r_field_ids [f])) as (f & F & I).
  { induction l as [|x t IH]; [destruct H|]. change (x :: t) with ([x] ++ t) in H. rewrite ids_app, in_app_iff in H.
    destruct H as [H|H]; [exists x; split; [left; reflexivity|exact H]|]. destruct (IH H) as (f & F & I). exists f. split; [right; exact F|exact I]. }
  destruct l as [|x t]; [destruct F|]. unfold schema_max_id. pose proof (max_id_le _ _ I).
  pose proof (fold_max_le (map max_id (x :: t)) (hd (-1) (map max_id (x :: t))) (max_id f) (in_map max_id _ _ F)). lia.
Qed.

(* fields that had an id keep it, the others get ids above every id in the schema and above max_existing *)
Definition fresh_above (m : Z) (o n : Z) : Prop := if o <? 0 then m < n else n = o.
Theorem set_field_id_ok : forall mx l l', set_field_id mx l = l' ->
  NoDup (given (r_field_ids l)) ->
  Forall (placed (-1)) l' /\ NoDup (r_field_ids l') /\ validate_ids l' = true /\ map shape l' = map shape l /\
  forall m, (m = -1 \/ In m (r_field_ids l) \/ mx = Some m) -> Forall2 (fresh_above m) (r_field_ids l) (r_field_ids l').
Proof.
  intros mx l l' E ND. unfold set_field_id in E.
  set (sm := match schema_max_id l with Some m => m | None => -1 end) in *.
  set (em := match mx with Some m => m | None => -1 end) in *.
  destruct (set_id_list (-1) (Z.max sm em + 1) l) as [l1 s'] eqn:A. cbn [fst] in E. subst l1.
  destruct (Z.ltb_spec (Z.max sm em) (-1)) as [Neg|Pos].
  { (* all ids below -1: then no id is given and no max *)
    exfalso. destruct l as [|x t]; [unfold sm in Neg; cbn in Neg; lia|]. revert Neg. unfold sm, schema_max_id.
    destruct x as [a c]. cbn [map fold_right max_id hd]. 
    assert (H : forall q, -1 <= fold_right Z.max (-1) q) by (induction q; cbn; lia). specialize (H (map max_id c)). lia. }
  assert (H0 : 0 <= Z.max sm em + 1) by lia.
  destruct (set_id_list_assigned _ _ _ _ _ H0 A) as (L & P & S & K & N).
  assert (Lt : forall i, In i (given (r_field_ids l)) -> i < Z.max sm em + 1).
  { intros i Hi. apply given_In in Hi. destruct Hi as [Hi _]. pose proof (schema_max_le _ _ Hi). fold sm in H. lia. }
  specialize (N ND Lt). split; [exact P|]. split; [exact N|]. split; [|split; [exact S|]].
  - unfold validate_ids. apply andb_true_iff. split.
    + apply forallb_forall. intros i Hi. apply Z.leb_le. destruct (kept_In _ _ _ _ _ K Hi) as [X|X]; [apply given_In in X; lia|lia].
    + clear -N. induction N as [|x t Hx Ht IH]; [reflexivity|]. cbn [nodupZ]. rewrite IH, andb_true_r. apply negb_true_iff.
      apply not_true_iff_false. intros X. apply existsb_exists in X. destruct X as (y & Y & E). apply Z.eqb_eq in E. subst y. contradiction.
  - intros m Hm. eapply Forall2_mono; [|exact K]. intros o n Kn. unfold kept, fresh_above in *. destruct (o <? 0); [|exact Kn].
    destruct Hm as [->|[Hm| ->]].
    + lia.
    + pose proof (schema_max_le _ _ Hm). fold sm in H. lia.
    + unfold em in Kn. lia.
Qed.
