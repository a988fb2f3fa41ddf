(* C92, C93: projections by field ids, excluding columns. *)
From Coq Require Import List Arith ZArith Bool Lia String.
From Verif Require Import Lib ReadParamsModel SchemaModel SchemaProofs ProjModel ProjProofs.
Import ListNotations.
Open Scope list_scope.

(* the paths whose field has one of the ids *)
Definition marked (ids : list Z) (l : list rfield) (q : list string) : Prop := exists f, at_path l q f /\ In (r_id f) ids.
(* what is kept: what leads to a marked field, and what is below one with nothing marked below *)
Definition keeps (ids : list Z) (all : bool) (l : list rfield) (p : list string) : Prop :=
  (exists q, prefix p q /\ marked ids l q) \/
  (exists q, prefix q p /\ marked ids l q /\ (all = true \/ forall q', prefix q q' -> marked ids l q' -> q' = q)).

Lemma memZ_iff : forall x l, memZ x l = true <-> In x l.
Proof. intros x l. unfold memZ. rewrite existsb_exists. split; [intros [y [J E]]; apply Z.eqb_eq in E; subst; exact J|intros J; exists x; split; [exact J|apply Z.eqb_refl]]. Qed.
Lemma marked_one : forall ids f q, marked ids [f] q <-> (q = [r_name f] /\ In (r_id f) ids) \/ exists r, q = r_name f :: r /\ marked ids (r_children f) r.
Proof.
  intros ids f q. unfold marked. split.
  - intros [g [H J]]. apply at_one in H as [[-> ->]|[r [-> H]]]; eauto 8.
  - intros [[-> J]|[r [-> [g [H J]]]]]; [exists f|exists g]; (split; [apply at_one; eauto|exact J]).
Qed.
Lemma marked_in : forall ids l q, marked ids l q <-> exists f, In f l /\ marked ids [f] q.
Proof.
  intros ids l q. unfold marked. split.
  - intros [g [H J]]. apply at_in in H as [f [K H]]. eauto.
  - intros [f [K [g [H J]]]]. exists g. split; [apply at_in; eauto|exact J].
Qed.
Lemma marked_nopath : forall ids l, ~ marked ids l [].
Proof. intros ids l [f [H _]]. exact (at_nopath _ _ H). Qed.
Lemma marked_head : forall ids l f r, NoDup (map r_name l) -> In f l -> (marked ids l (r_name f :: r) <-> marked ids [f] (r_name f :: r)).
Proof. intros ids l f r N J. unfold marked. split; intros [g [H K]]; exists g; (split; [apply (at_head l f r g N J); exact H|exact K]). Qed.
(* whether a field is kept depends on its own tree only *)
Lemma keeps_head : forall ids all l f r, NoDup (map r_name l) -> In f l -> (keeps ids all l (r_name f :: r) <-> keeps ids all [f] (r_name f :: r)).
Proof.
  intros ids all l f r N J. unfold keeps.
  assert (M : forall q, prefix (r_name f :: r) q -> (marked ids l q <-> marked ids [f] q)).
  { intros q [x ->]. cbn [app]. apply marked_head; assumption. }
  assert (M' : forall q, prefix q (r_name f :: r) -> (marked ids l q <-> marked ids [f] q)).
  { intros q P. destruct q as [|n q]; [split; intros H; destruct (marked_nopath _ _ H)|]. apply prefix_cons in P as [-> _]. apply marked_head; assumption. }
  assert (M2 : forall q q', prefix q (r_name f :: r) -> marked ids l q -> prefix q q' -> (marked ids l q' <-> marked ids [f] q')).
  { intros q q' P Q [x ->]. destruct q as [|n q]; [destruct (marked_nopath _ _ Q)|]. apply prefix_cons in P as [-> _]. cbn [app]. apply marked_head; assumption. }
  split; (intros [[q [P H]]|[q [P [H D]]]]; [left; exists q; split; [exact P|apply (M q P); exact H]|right; exists q]).
  - split; [exact P|]. split; [apply (M' q P); exact H|]. destruct D as [D|D]; [auto|]. right. intros q' PQ HQ. apply D; [exact PQ|]. apply (M2 q q' P H PQ). exact HQ.
  - assert (H' := proj2 (M' q P) H). split; [exact P|]. split; [exact H'|]. destruct D as [D|D]; [auto|]. right. intros q' PQ HQ. apply D; [exact PQ|]. apply (M2 q q' P H' PQ). exact HQ.
Qed.

Lemma by_ids_eq : forall ids all a c, f_by_ids ids all (RF a c) =
  let c' := flat_map (f_by_ids ids all) c in
  if memZ (a_id a) ids && ((match c' with [] => true | _ => false end) || all) then [RF a c] else match c' with [] => [] | _ => [RF a c'] end.
Proof. reflexivity. Qed.
Lemma by_ids_name : forall ids all f g, In g (f_by_ids ids all f) -> r_attrs g = r_attrs f.
Proof.
  intros ids all [a c] g. rewrite by_ids_eq. cbv zeta. set (c' := flat_map (f_by_ids ids all) c). clearbody c'. destruct (memZ (a_id a) ids && _); [intros [<-|[]]; reflexivity|]. destruct c'; [contradiction|intros [<-|[]]; reflexivity].
Qed.
Lemma by_ids_empty : forall ids all f, f_by_ids ids all f = [] <-> forall q, ~ marked ids [f] q.
Proof.
  intros ids all. induction f as [a c IH] using rfield_ind'. rewrite by_ids_eq. cbv zeta.
  assert (C : flat_map (f_by_ids ids all) c = [] <-> forall q, ~ marked ids c q).
  { clear a. induction IH as [|x t H IH IHt]; cbn [flat_map].
    - split; [intros _ q M; apply marked_in in M as [f [[] _]]|reflexivity].
    - split.
      + intros E q M. apply app_eq_nil in E as [E1 E2]. apply marked_in in M as [f [[<-|J] M]]; [exact (proj1 H E1 q M)|]. apply (proj1 IHt E2 q). apply marked_in. eauto.
      + intros D. rewrite (proj2 H), (proj2 IHt); [reflexivity| |]; intros q M; apply (D q); apply marked_in.
        * apply marked_in in M as [f [J M]]. exists f. split; [right|]; assumption.
        * exists x. split; [left; reflexivity|exact M]. }
  destruct (memZ (a_id a) ids) eqn:M; cbn [andb].
  - apply memZ_iff in M. split.
    + intros E. exfalso. destruct (flat_map (f_by_ids ids all) c); cbn [orb] in E; [discriminate|]. destruct all; discriminate.
    + intros D. exfalso. apply (D [a_name a]). apply marked_one. left. split; [reflexivity|exact M].
  - destruct (flat_map (f_by_ids ids all) c) as [|x t] eqn:E.
    + split; [|reflexivity]. intros _ q H. apply marked_one in H as [[_ J]|[r [-> H]]].
      * apply memZ_iff in J. cbn in J. unfold r_id in J. cbn in J. congruence.
      * exact (proj1 C eq_refl r H).
    + split; [discriminate|]. intros D. exfalso. assert (X : x :: t = []); [|discriminate]. apply C. intros q H. apply (D (a_name a :: q)). apply marked_one. right. exists q. auto.
Qed.
Lemma by_ids_one : forall ids all f, well f -> forall p b, has (f_by_ids ids all f) p b <-> has [f] p b /\ keeps ids all [f] p.
Proof.
  intros ids all. induction f as [a c IH] using rfield_ind'. intros W p b. inversion W as [? ? N K WC]; subst. rewrite Forall_forall in IH, WC.
  set (f := RF a c). assert (EF : f_by_ids ids all f = []<->forall q, ~ marked ids [f] q) by apply by_ids_empty.
  assert (C : forall p b, has (flat_map (f_by_ids ids all) c) p b <-> has c p b /\ keeps ids all c p).
  { intros q e. split.
    - intros H. apply has_in in H as [g [J H]]. apply in_flat_map in J as [x [JX JG]]. assert (H' : has (f_by_ids ids all x) q e) by (apply has_in; eauto). apply (IH x JX (WC x JX)) in H' as [H1 H2].
      destruct (has_head _ _ _ H1) as [r ->]. split; [apply has_in; eauto|apply (keeps_head ids all c x r N JX); exact H2].
    - intros [H KP]. destruct (has_name _ _ _ H) as [x [r [JX ->]]]. apply (has_head_iff c x r e N JX) in H. apply (keeps_head ids all c x r N JX) in KP.
      assert (H' : has (f_by_ids ids all x) (r_name x :: r) e) by (apply (IH x JX (WC x JX)); auto). apply has_in in H' as [g [JG H']]. apply has_in. exists g. split; [apply in_flat_map; eauto|exact H']. }
  assert (SELF : keeps ids all [f] [r_name f] <-> exists q, marked ids [f] q).
  { split; [intros [[q [_ M]]|[q [_ [M _]]]]; eauto|]. intros [q M]. left. exists q. split; [|exact M]. apply marked_one in M as [[-> _]|[r [-> _]]]; [apply prefix_refl|apply prefix_cons; split; [reflexivity|apply prefix_nil]]. }
  (* below the field *)
  assert (BELOW : forall r e, has c r e -> (keeps ids all [f] (r_name f :: r) <-> keeps ids all c r \/ (In (r_id f) ids /\ (all = true \/ forall q, ~ marked ids c q)))).
  { intros r e HC. split.
    - intros [[q [P M]]|[q [P [M D]]]].
      + apply marked_one in M as [[-> M]|[s [-> M]]]; [apply prefix_cons in P as [_ P]; apply prefix_of_nil in P; subst r; destruct (has_nopath _ _ HC)|]. left. left. exists s. apply prefix_cons in P as [_ P]. auto.
      + apply marked_one in M as [[-> M]|[s [-> M]]].
        * right. split; [exact M|]. destruct D as [D|D]; [auto|]. right. intros q MQ. assert (E : r_name f :: q = [r_name f]); [|injection E as ->; destruct (marked_nopath _ _ MQ)].
          apply D; [apply prefix_cons; split; [reflexivity|apply prefix_nil]|]. apply marked_one. right. eauto.
        * left. right. exists s. apply prefix_cons in P as [_ P]. split; [exact P|]. split; [exact M|]. destruct D as [D|D]; [auto|]. right. intros q' P' M'. assert (E : r_name f :: q' = r_name f :: s); [|injection E as ->; reflexivity].
          apply D; [apply prefix_cons; auto|]. apply marked_one. right. eauto.
    - intros [[[q [P M]]|[q [P [M D]]]]|[M D]].
      + left. exists (r_name f :: q). split; [apply prefix_cons; auto|]. apply marked_one. right. eauto.
      + right. exists (r_name f :: q). split; [apply prefix_cons; auto|]. split; [apply marked_one; right; eauto|]. destruct D as [D|D]; [auto|]. right. intros q' P' M'.
        apply marked_one in M' as [[-> M']|[s [-> M']]].
        * apply prefix_cons in P' as [_ P']. apply prefix_of_nil in P'. subst q. destruct (marked_nopath _ _ M).
        * apply prefix_cons in P' as [_ P']. f_equal. apply D; auto.
      + right. exists [r_name f]. split; [apply prefix_cons; split; [reflexivity|apply prefix_nil]|]. split; [apply marked_one; auto|]. destruct D as [D|D]; [auto|]. right. intros q' P' M'.
        apply marked_one in M' as [[-> _]|[s [-> M']]]; [reflexivity|]. destruct (D s M'). }
  assert (NOC : flat_map (f_by_ids ids all) c = [] <-> forall q, ~ marked ids c q).
  { split.
    - intros E q M. apply marked_in in M as [x [J M]]. assert (X : f_by_ids ids all x = []).
      { destruct (f_by_ids ids all x) as [|g t] eqn:EX; [reflexivity|]. assert (In g (flat_map (f_by_ids ids all) c)) by (apply in_flat_map; exists x; split; [exact J|rewrite EX; left; reflexivity]). rewrite E in H. contradiction. }
      apply (proj1 (by_ids_empty ids all x) X q M).
    - intros D. destruct (flat_map (f_by_ids ids all) c) as [|g t] eqn:E; [reflexivity|]. exfalso. assert (J : In g (flat_map (f_by_ids ids all) c)) by (rewrite E; left; reflexivity). apply in_flat_map in J as [x [J1 J2]].
      assert (X : f_by_ids ids all x = []) by (apply by_ids_empty; intros q M; apply (D q); apply marked_in; eauto). rewrite X in J2. contradiction. }
  assert (GOAL : forall m, (m = c \/ m = flat_map (f_by_ids ids all) c) -> (exists q, marked ids [f] q) ->
     (forall r e, has m r e <-> has c r e /\ (keeps ids all c r \/ (In (r_id f) ids /\ (all = true \/ forall q, ~ marked ids c q)))) -> (has [RF a m] p b <-> has [f] p b /\ keeps ids all [f] p)).
  { intros m _ EX HM. rewrite !has_one. cbn [r_children r_attrs]. change (r_name (RF a m)) with (r_name f). split.
    - intros [[-> ->]|[r [-> H]]]; [split; [left; auto|apply SELF; exact EX]|]. apply HM in H as [H KP]. split; [right; exists r; auto|]. apply (BELOW r b H). exact KP.
    - intros [[[-> ->]|[r [-> H]]] KP]; [left; auto|]. right. exists r. split; [reflexivity|]. apply HM. split; [exact H|]. apply (BELOW r b H). exact KP. }
  unfold f at 1. rewrite by_ids_eq. cbv zeta. destruct (memZ (a_id a) ids && ((match flat_map (f_by_ids ids all) c with [] => true | _ => false end) || all)) eqn:B.
  - apply andb_true_iff in B as [B1 B2]. apply memZ_iff in B1. apply GOAL; [auto|exists [r_name f]; apply marked_one; left; auto|]. intros r e. split; [|tauto]. intros H. split; [exact H|]. right. split; [exact B1|].
    apply orb_true_iff in B2 as [B2|B2]; [|auto]. right. apply NOC. destruct (flat_map (f_by_ids ids all) c); [reflexivity|discriminate].
  - assert (NS : ~ (In (r_id f) ids /\ (all = true \/ forall q, ~ marked ids c q))).
    { intros [J D]. apply memZ_iff in J. change (a_id a) with (r_id f) in B. rewrite J in B. cbn [andb] in B. apply orb_false_iff in B as [B1 B2]. destruct D as [D|D]; [congruence|]. apply NOC in D. rewrite D in B1. discriminate. }
    destruct (flat_map (f_by_ids ids all) c) as [|x t] eqn:E.
    + assert (NM : forall q, ~ marked ids [f] q).
      { intros q M. apply marked_one in M as [[-> J]|[r [-> M]]]; [|exact (proj1 NOC eq_refl r M)]. apply NS. split; [exact J|]. right. apply NOC. reflexivity. }
      split; [intros H; destruct (has_nil _ _ H)|]. intros [H [[q [_ M]]|[q [_ [M _]]]]]; destruct (NM q M).
    + rewrite <- E in *. apply GOAL; [auto| |].
      * assert (X : exists q, marked ids c q).
        { assert (J : In x (flat_map (f_by_ids ids all) c)) by (rewrite E; left; reflexivity). apply in_flat_map in J as [y [J1 J2]].
          destruct (f_by_ids ids all y) eqn:EY; [contradiction|]. destruct (has_one y [r_name y] (r_attrs y)) as [_ HY]. 
          assert (HH : has (f_by_ids ids all y) [r_name y] (r_attrs y)). { apply has_in. exists x. split; [rewrite EY; exact J2|]. assert (AX := by_ids_name ids all y x ltac:(rewrite EY; exact J2)). apply has_one. left. unfold r_name. rewrite AX. auto. }
          apply (IH y J1 (WC y J1)) in HH as [_ [[q [_ M]]|[q [_ [M _]]]]]; exists q; apply marked_in; eauto. }
        destruct X as [q M]. exists (r_name f :: q). apply marked_one. right. eauto.
      * intros r e. rewrite C. split; [tauto|]. intros [H [KP|KP]]; [auto|contradiction].
Qed.
Theorem by_ids_exact : forall ids all l, schema_well l -> forall p a, has (project_by_ids ids all l) p a <-> has l p a /\ keeps ids all l p.
Proof.
  intros ids all l [N W] p a. unfold project_by_ids. rewrite Forall_forall in W. split.
  - intros H. apply has_in in H as [g [J H]]. apply in_flat_map in J as [x [JX JG]]. assert (H' : has (f_by_ids ids all x) p a) by (apply has_in; eauto). apply (by_ids_one ids all x (W x JX)) in H' as [H1 H2].
    destruct (has_head _ _ _ H1) as [r ->]. split; [apply has_in; eauto|apply (keeps_head ids all l x r N JX); exact H2].
  - intros [H KP]. destruct (has_name _ _ _ H) as [x [r [JX ->]]]. apply (has_head_iff l x r a N JX) in H. apply (keeps_head ids all l x r N JX) in KP.
    assert (H' : has (f_by_ids ids all x) (r_name x :: r) a) by (apply (by_ids_one ids all x (W x JX)); auto). apply has_in in H' as [g [JG H']]. apply has_in. exists g. split; [apply in_flat_map; eauto|exact H'].
Qed.

(* ---- ids name fields ---- *)
Lemma NoDup_flat_map : forall {A B} (F : A -> list B) l x y b, NoDup (flat_map F l) -> In x l -> In y l -> In b (F x) -> In b (F y) -> x = y.
Proof.
  intros A B F l x y b. induction l as [|z l IH]; intros N JX JY BX BY; [contradiction|]. cbn [flat_map] in N. apply NoDup_app_l in N as [N1 [N2 D]].
  destruct JX as [->|JX], JY as [->|JY]; auto; exfalso.
  - apply (D b BX). apply in_flat_map. eauto.
  - apply (D b BY). apply in_flat_map. eauto.
Qed.
Lemma ids_flat : forall l, r_field_ids l = flat_map (fun f => r_field_ids [f]) l.
Proof. induction l as [|f l IH]; [reflexivity|]. cbn [flat_map]. rewrite <- IH, <- ids_app. reflexivity. Qed.
Lemma ids_one : forall f, r_field_ids [f] = r_id f :: r_field_ids (r_children f).
Proof. intros [a c]. rewrite ids_cons, ids_nil, app_nil_r. reflexivity. Qed.
Lemma at_ids : forall l p f, at_path l p f -> In (r_id f) (r_field_ids l).
Proof.
  intros l p f H. induction H as [l f J|l f p g J A IH]; rewrite ids_flat; apply in_flat_map; exists f; (split; [exact J|]); rewrite ids_one; [left; reflexivity|right; exact IH].
Qed.
Lemma ids_at : forall f i, In i (r_field_ids [f]) -> exists p g, at_path [f] p g /\ r_id g = i.
Proof.
  induction f as [a c IH] using rfield_ind'. intros i J. rewrite ids_one in J. destruct J as [<-|J]; [exists [r_name (RF a c)], (RF a c); split; [constructor; left; reflexivity|reflexivity]|].
  cbn [r_children] in J. rewrite ids_flat in J. apply in_flat_map in J as [x [JX J]]. rewrite Forall_forall in IH. destruct (IH x JX i J) as [p [g [H E]]]. exists (a_name a :: p), g. split; [|exact E]. apply at_one. right. exists p. split; [reflexivity|]. apply at_in. eauto.
Qed.
Lemma ids_at_list : forall l i, In i (r_field_ids l) -> exists p g, at_path l p g /\ r_id g = i.
Proof. intros l i J. rewrite ids_flat in J. apply in_flat_map in J as [x [JX J]]. destruct (ids_at x i J) as [p [g [H E]]]. exists p, g. split; [apply at_in; eauto|exact E]. Qed.
Lemma at_unique_id : forall l p f q g, NoDup (r_field_ids l) -> at_path l p f -> at_path l q g -> r_id f = r_id g -> p = q.
Proof.
  intros l p f q g N H. revert q g. induction H as [l f J|l f p g0 J A IH]; intros q g G E; apply at_in in G as [h [K G]].
  - assert (f = h). { rewrite ids_flat in N. eapply (NoDup_flat_map _ l f h (r_id f) N J K); [rewrite ids_one; left; reflexivity|]. rewrite E. exact (at_ids _ _ _ G). }
    subst h. apply at_one in G as [[-> _]|[r [-> G]]]; [reflexivity|]. exfalso. rewrite ids_flat in N. apply in_split in J as [l1 [l2 ->]]. rewrite flat_map_app in N. cbn [flat_map] in N. apply NoDup_app_l in N as [_ [N _]]. apply NoDup_app_l in N as [N _]. rewrite ids_one in N. inversion N as [|? ? NI _]; subst. apply NI. rewrite E. exact (at_ids _ _ _ G).
  - assert (f = h). { rewrite ids_flat in N. eapply (NoDup_flat_map _ l f h (r_id g0) N J K); [rewrite ids_one; right; exact (at_ids _ _ _ A)|]. rewrite E. exact (at_ids _ _ _ G). }
    subst h. assert (NC : NoDup (r_id f :: r_field_ids (r_children f))).
    { rewrite ids_flat in N. apply in_split in J as [l1 [l2 ->]]. rewrite flat_map_app in N. cbn [flat_map] in N. apply NoDup_app_l in N as [_ [N _]]. apply NoDup_app_l in N as [N _]. rewrite ids_one in N. exact N. }
    inversion NC as [|? ? NI NC']; subst. apply at_one in G as [[-> ->]|[r [-> G]]].
    + exfalso. apply NI. rewrite <- E. exact (at_ids _ _ _ A).
    + f_equal. eapply IH; eauto.
Qed.

(* ---- C92: Projection ---- *)
Lemma at_prefix : forall p q l g, at_path l q g -> prefix p q -> p <> [] -> exists f, at_path l p f.
Proof.
  induction p as [|n p IH]; intros q l g H P NE; [congruence|]. destruct q as [|m q]; [apply prefix_of_nil in P; discriminate|]. apply prefix_cons in P as [-> P]. apply at_iff in H as [f [J [[E ->]|[r [E A]]]]].
  - injection E as -> ->. apply prefix_of_nil in P. subst p. exists f. constructor. exact J.
  - injection E as -> ->. destruct p as [|k p]; [exists f; constructor; exact J|]. destruct (IH r (r_children f) g A P ltac:(discriminate)) as [h H]. exists h. eapply at_below; eauto.
Qed.
Lemma resolve_spec : forall p l, schema_well l -> (exists g, at_path l p g) ->
  exists fs, resolve l p = Some fs /\ forall f, In f fs <-> exists q, prefix q p /\ at_path l q f.
Proof.
  induction p as [|n p IH]; intros l [N W] [g G]; [destruct (at_nopath _ _ G)|]. destruct (at_descend _ _ _ _ G) as [x [J [EN X]]]. cbn [resolve]. rewrite (proj2 (lookup_some n l x N) (conj J EN)).
  assert (WX : well x) by (rewrite Forall_forall in W; auto). destruct (well_inv x WX) as [NC [WC _]].
  assert (HD : forall q f, prefix q (n :: p) -> (at_path l q f <-> (q = [n] /\ f = x) \/ exists r, q = n :: r /\ prefix r p /\ at_path (r_children x) r f)).
  { intros q f P. destruct q as [|m q]; [split; [intros H; destruct (at_nopath _ _ H)|intros [[E _]|[r [E _]]]; discriminate]|]. apply prefix_cons in P as [-> P]. rewrite <- EN, (at_head l x q f N J), at_one. split.
    - intros [[E ->]|[r [E A]]]; [left; auto|right]. exists r. injection E as ->. auto.
    - intros [[E ->]|[r [E [_ A]]]]; [left; auto|right; eauto]. }
  destruct X as [->|[g' X]].
  - exists [x]. split; [reflexivity|]. intros f. split.
    + intros [<-|[]]. exists [n]. split; [apply prefix_refl|]. apply HD; [apply prefix_refl|auto].
    + intros [q [P H]]. apply (HD q f P) in H as [[_ ->]|[r [-> [PR A]]]]; [left; reflexivity|]. apply prefix_of_nil in PR. subst r. destruct (at_nopath _ _ A).
  - destruct p as [|m p]; [destruct (at_nopath _ _ X)|]. destruct (IH (r_children x) (conj NC WC) (ex_intro _ g' X)) as [fs [-> F]]. exists (x :: fs). split; [reflexivity|]. intros f. split.
    + intros [<-|K]; [exists [n]; assert (P : prefix [n] (n :: m :: p)) by (apply prefix_cons; split; [reflexivity|apply prefix_nil]); split; [exact P|apply HD; auto]|].
      apply F in K as [q [P A]]. assert (P' : prefix (n :: q) (n :: m :: p)) by (apply prefix_cons; auto). exists (n :: q). split; [exact P'|]. apply HD; [exact P'|]. right. eauto.
    + intros [q [P H]]. apply (HD q f P) in H as [[_ ->]|[r [-> [PR A]]]]; [left; reflexivity|right]. apply F. eauto.
Qed.
Lemma union_columns_ids : forall err l cols ids, schema_well l -> NoDup (r_field_ids l) -> Forall (fun c => exists f, at_path l c f) cols ->
  exists r, union_columns err l ids cols = Ok r /\ forall q, marked r l q <-> marked ids l q \/ exists c, In c cols /\ prefix q c /\ q <> [].
Proof.
  intros err l. induction cols as [|c t IH]; intros ids W N F.
  - exists ids. split; [reflexivity|]. intros q. split; [auto|]. intros [H|[c [[] _]]]. exact H.
  - inversion F as [|? ? E F']; subst. cbn [union_columns]. unfold union_column. destruct (resolve_spec c l W E) as [fs [-> FS]]. cbn [obnd]. destruct (IH (ids ++ map r_id fs) W N F') as [r [-> R]]. exists r. split; [reflexivity|]. intros q. rewrite R.
    assert (M : marked (ids ++ map r_id fs) l q <-> marked ids l q \/ (prefix q c /\ q <> [])).
    { split.
      - intros [f [H J]]. apply in_app_or in J as [J|J]; [left; exists f; auto|]. right. apply in_map_iff in J as [g [EG J]]. apply FS in J as [q' [P A]]. assert (q' = q) by (eapply at_unique_id; eauto). subst q'. split; [exact P|]. intros ->. destruct (at_nopath _ _ H).
      - intros [[f [H J]]|[P NE]]; [exists f; split; [exact H|apply in_or_app; auto]|]. destruct E as [g E]. destruct (at_prefix q c l g E P NE) as [f H]. exists f. split; [exact H|]. apply in_or_app. right. apply in_map. apply FS. eauto. }
    rewrite M. split.
    + intros [[H|[P NE]]|[c' [J P]]]; auto; right; [exists c|exists c']; (split; [cbn; auto|auto]).
    + intros [H|[c' [[<-|J] P]]]; auto. right. eauto.
Qed.
Lemma marked_none : forall l q, ~ marked [] l q.
Proof. intros l q [f [_ []]]. Qed.
(* what a list of columns adds up to *)
Theorem union_columns_are : forall err l cols, schema_well l -> NoDup (r_field_ids l) -> Forall (fun c => exists f, at_path l c f) cols ->
  exists ids, union_columns err l [] cols = Ok ids /\
    forall p a, has (to_schema l ids) p a <-> has l p a /\
      ((exists c, In c cols /\ prefix p c) \/ (exists c, In c cols /\ prefix c p /\ forall c', In c' cols -> prefix c c' -> c' = c)).
Proof.
  intros err l cols W N F. destruct (union_columns_ids err l cols [] W N F) as [ids [E M]]. exists ids. split; [exact E|]. intros p a. unfold to_schema. rewrite (by_ids_exact ids false l W p a).
  assert (MI : forall q, marked ids l q <-> exists c, In c cols /\ prefix q c /\ q <> []) by (intros q; rewrite M; split; [intros [H|H]; [destruct (marked_none _ _ H)|exact H]|auto]). clear M.
  split; intros [H K]; (split; [exact H|]).
  - destruct K as [[q [P MQ]]|[q [P [MQ [D|D]]]]]; [|discriminate|].
    + apply MI in MQ as [c [J [PC _]]]. left. exists c. split; [exact J|eapply prefix_trans; eauto].
    + apply MI in MQ as [c [J [PC NE]]]. right. exists c. assert (c = q). { apply D; [exact PC|]. apply MI. exists c. split; [exact J|]. split; [apply prefix_refl|]. intros ->. apply NE. apply prefix_of_nil. exact PC. }
      subst c. split; [exact J|]. split; [exact P|]. intros c' J' P'. apply D; [exact P'|]. apply MI. exists c'. split; [exact J'|]. split; [apply prefix_refl|]. intros ->. apply NE. apply prefix_of_nil. exact P'.
  - assert (NE : p <> []) by (intros ->; destruct (has_nopath _ _ H)). destruct K as [[c [J P]]|[c [J [P D]]]].
    + left. exists p. split; [apply prefix_refl|]. apply MI. eauto.
    + assert (NC : c <> []) by (rewrite Forall_forall in F; destruct (F c J) as [f A]; intros ->; destruct (at_nopath _ _ A)). right. exists c. split; [exact P|]. split; [apply MI; exists c; split; [exact J|]; split; [apply prefix_refl|exact NC]|]. right.
      intros q' P' MQ. apply MI in MQ as [c' [J' [PC _]]]. assert (c' = c) by (apply D; [exact J'|eapply prefix_trans; eauto]). subst c'. apply prefix_antisym; assumption.
Qed.
Theorem union_columns_exact : forall err l cols, schema_well l -> NoDup (r_field_ids l) -> Forall (fun c => exists f, at_path l c f) cols ->
  (forall c c', In c cols -> In c' cols -> prefix c c' -> c' = c) ->
  exists ids, union_columns err l [] cols = Ok ids /\ forall p a, has (to_schema l ids) p a <-> has l p a /\ selected cols p.
Proof.
  intros err l cols W N F AC. destruct (union_columns_are err l cols W N F) as [ids [E H]]. exists ids. split; [exact E|]. intros p a. rewrite H. unfold selected. split; intros [X Y]; (split; [exact X|]).
  - destruct Y as [[c [J P]]|[c [J [P _]]]]; eauto.
  - destruct Y as [c [J [P|P]]]; [left; eauto|right; exists c; auto].
Qed.

(* ---- adding and removing projected schemas ---- *)
Lemma comparable : forall p q r, prefix p r -> prefix q r -> prefix p q \/ prefix q p.
Proof.
  induction p as [|n p IH]; intros q r P Q; [left; apply prefix_nil|]. destruct q as [|m q]; [right; apply prefix_nil|]. destruct r as [|k r]; [apply prefix_of_nil in P; discriminate|].
  apply prefix_cons in P as [-> P]. apply prefix_cons in Q as [-> Q]. destruct (IH q r P Q) as [H|H]; [left|right]; apply prefix_cons; auto.
Qed.
Definition projects (l : list rfield) (cols : list (list string)) (r : list rfield) : Prop := forall p a, has r p a <-> has l p a /\ selected cols p.
Lemma marked_ids : forall l cols r q, NoDup (r_field_ids l) -> projects l cols r -> (exists f, at_path l q f /\ In (r_id f) (r_field_ids r)) <-> (exists a, has l q a) /\ selected cols q.
Proof.
  intros l cols r q N PR. split.
  - intros [f [H J]]. destruct (ids_at_list r _ J) as [p [g [A E]]]. assert (X : has r p (r_attrs g)) by (exists g; auto). apply PR in X as [[h [B EH]] S]. assert (p = q) by (eapply at_unique_id; [exact N|exact B|exact H|]; unfold r_id in *; congruence). subst p. split; [exists (r_attrs f), f; auto|exact S].
  - intros [[a H] S]. assert (X : has r q a) by (apply PR; auto). destruct X as [g [A EG]]. destruct H as [f [H EF]]. exists f. split; [exact H|]. replace (r_id f) with (r_id g) by (unfold r_id; congruence). exact (at_ids _ _ _ A).
Qed.
Theorem union_schema_exact : forall l cols1 cols2 r1 r2, schema_well l -> NoDup (r_field_ids l) -> Forall (fun c => exists f, at_path l c f) (cols1 ++ cols2) ->
  projects l cols1 r1 -> projects l cols2 r2 -> projects l (cols1 ++ cols2) (to_schema l (union_schema (r_field_ids r1) r2)).
Proof.
  intros l cols1 cols2 r1 r2 W N F P1 P2 p a. unfold to_schema. rewrite (by_ids_exact _ false l W p a).
  assert (M : forall q, marked (union_schema (r_field_ids r1) r2) l q <-> (exists a, has l q a) /\ selected (cols1 ++ cols2) q).
  { intros q. split.
    - intros [f [H J]]. unfold union_schema in J. apply in_app_or in J as [J|J].
      + destruct (proj1 (marked_ids l cols1 r1 q N P1) (ex_intro _ f (conj H J))) as [X [c [JC S]]]. split; [exact X|]. exists c. split; [apply in_or_app; auto|exact S].
      + destruct (proj1 (marked_ids l cols2 r2 q N P2) (ex_intro _ f (conj H J))) as [X [c [JC S]]]. split; [exact X|]. exists c. split; [apply in_or_app; auto|exact S].
    - intros [X [c [JC S]]]. apply in_app_or in JC as [JC|JC].
      + destruct (proj2 (marked_ids l cols1 r1 q N P1) (conj X (ex_intro _ c (conj JC S)))) as [f [H J]]. exists f. split; [exact H|apply in_or_app; auto].
      + destruct (proj2 (marked_ids l cols2 r2 q N P2) (conj X (ex_intro _ c (conj JC S)))) as [f [H J]]. exists f. split; [exact H|apply in_or_app; auto]. }
  rewrite Forall_forall in F. split; intros [H K]; (split; [exact H|]).
  - destruct K as [[q [P MQ]]|[q [P [MQ [D|D]]]]]; [|discriminate|]; apply M in MQ as [X [c [J S]]]; exists c; (split; [exact J|]).
    + destruct S as [S|S]; [left; eapply prefix_trans; eauto|]. eapply comparable; eauto.
    + destruct S as [S|S]; [|right; eapply prefix_trans; eauto]. right. assert (E : c = q); [|subst; exact P]. apply D; [exact S|]. apply M. destruct (F c J) as [f A]. split; [exists (r_attrs f), f; auto|]. exists c. split; [exact J|left; apply prefix_refl].
  - left. exists p. split; [apply prefix_refl|]. apply M. split; [eauto|exact K].
Qed.
Lemma has_prefix : forall l p q a, has l q a -> prefix p q -> p <> [] -> exists b, has l p b.
Proof. intros l p q a [g [H E]] P NE. destruct (at_prefix p q l g H P NE) as [f X]. exists (r_attrs f), f. auto. Qed.
Lemma leaf_has : forall l p a, leaf l p a -> has l p a.
Proof. intros l p a [f [H [E _]]]. exists f. auto. Qed.
Lemma at_unique : forall p l f g, schema_well l -> at_path l p f -> at_path l p g -> f = g.
Proof. intros p l f g W A B. apply (field_at_path p l f W) in A. apply (field_at_path p l g W) in B. congruence. Qed.
Lemma leaf_iff : forall l p a, schema_well l -> (leaf l p a <-> has l p a /\ forall q b, has l q b -> prefix p q -> q = p).
Proof.
  intros l p a W. split.
  - intros [f [H [E C]]]. split; [exists f; auto|]. clear E. revert W. induction H as [l f J|l f p g J A IH]; intros [N WL] q b HQ [x ->].
    + destruct x as [|m x]; [reflexivity|]. exfalso. cbn [app] in HQ. apply (has_head_iff l f (m :: x) b N J) in HQ. apply has_one in HQ as [[E _]|[r [E HQ]]]; [discriminate|]. rewrite C in HQ. destruct (has_nil _ _ HQ).
    + cbn [app] in HQ. apply (has_head_iff l f (p ++ x) b N J) in HQ. apply has_one in HQ as [[E _]|[r [E HQ]]].
      * injection E as E. apply app_eq_nil in E as [-> ->]. destruct (at_nopath _ _ A).
      * injection E as <-. assert (WF : well f) by (rewrite Forall_forall in WL; auto). destruct (well_inv f WF) as [NC [WC _]]. cbn [app]. f_equal. apply (IH C (conj NC WC) (p ++ x) b HQ). exists x. reflexivity.
  - intros [[f [H E]] D]. exists f. split; [exact H|]. split; [exact E|]. destruct (r_children f) as [|x c] eqn:C; [reflexivity|]. exfalso.
    assert (X : at_path l (p ++ [r_name x]) x).
    { clear D E. induction H as [l f J|l f p g J A IH]; cbn [app]; (eapply at_below; [exact J|]).
      - constructor. rewrite C. left; reflexivity.
      - destruct W as [_ WL]. assert (WF : well f) by (rewrite Forall_forall in WL; auto). destruct (well_inv f WF) as [NC [WC _]]. apply IH; [split; assumption|exact C]. }
    assert (E2 : p ++ [r_name x] = p) by (eapply D; [exists x; eauto|exists [r_name x]; reflexivity]). rewrite <- (app_nil_r p) in E2 at 2. apply app_inv_head in E2. discriminate.
Qed.
