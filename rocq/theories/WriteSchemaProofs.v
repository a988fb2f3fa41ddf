(* C95: the schema an append writes with. *)
From Coq Require Import List Arith ZArith Bool Lia String.
From Verif Require Import Lib ReadParamsModel SchemaModel SchemaProofs ProjModel CmpModel WriteSchemaModel CmpProofs ProjProofs.
Import ListNotations.
Open Scope list_scope.

(* ---- specification: w has the fields of the data, in their order, with the attributes of the dataset ---- *)
(* the same kind of type, the same type if there is nothing below *)
Definition same_type (t u : string) : Prop := kind_of t = kind_of u /\ (kind_of t = KLeaf -> t = u).
Inductive relabelled : rfield -> rfield -> rfield -> Prop :=
| relabelled_intro : forall a c ao co d, a_name a = a_name ao -> same_type (a_type a) (a_type ao) -> relabelleds c co d -> relabelled (RF a c) (RF ao co) (RF a d)
with relabelleds : list rfield -> list rfield -> list rfield -> Prop :=
| rl_nil : forall l, relabelleds l [] []
| rl_cons : forall l f x y t u, In f l -> relabelled f x y -> relabelleds l t u -> relabelleds l (x :: t) (y :: u).

(* data that may be appended: at every level no columns that the dataset does not have, those there are of
   the same type and dictionary, and only nullable ones missing; order, nullability, ids and metadata do not matter *)
Definition fits (R : rfield -> rfield -> Prop) (es fs : list rfield) : Prop :=
  (forall y, In y fs -> exists x, In x es /\ r_name x = r_name y) /\
  (forall x, In x es -> (exists y, In y fs /\ r_name y = r_name x /\ R x y) \/ ((forall y, In y fs -> r_name y <> r_name x) /\ a_null (r_attrs x) = true)).
Inductive appendable : rfield -> rfield -> Prop :=
| appendable_intro : forall ae ce af cf, a_name af = a_name ae -> a_type af = a_type ae -> same_dict (a_dict af) (a_dict ae) -> fits appendable ce cf -> appendable (RF ae ce) (RF af cf).
Lemma fits_covers : forall (R Q : rfield -> rfield -> Prop) es fs, (forall x y, In x es -> (R x y <-> Q x y)) -> (covers append_options R es fs <-> fits Q es fs).
Proof.
  intros R Q es fs H. unfold covers, fits. split.
  - intros (A & B & _). split; [exact A|]. intros x J. destruct (B x J) as [(y & Jy & E & X)|(X & _ & Y)]; [left; exists y; split; [exact Jy|]; split; [exact E|]; apply H; auto|right; auto].
  - intros (A & B). split; [exact A|]. split; [|discriminate]. intros x J. destruct (B x J) as [(y & Jy & E & X)|(X & Y)]; [left; exists y; split; [exact Jy|]; split; [exact E|]; apply H; auto|right; auto].
Qed.
Lemma appendable_iff : forall x y, compatible append_options x y <-> appendable x y.
Proof.
  induction x as [a c IH] using rfield_ind'. rewrite Forall_forall in IH. intros [b d].
  assert (F : covers append_options (compatible append_options) c d <-> fits appendable c d) by (apply fits_covers; intros x y J; apply IH; exact J). split; intros H; inversion H as [? ? ? ? O C]; subst.
  - destruct O as (O1 & O2 & _ & _ & O3 & _). constructor; auto. apply F. assumption.
  - constructor; [|apply F; assumption]. unfold same_own. cbn. repeat split; auto; discriminate.
Qed.
Lemma appendable_schemas : forall s e, compatible_schemas append_options s e <-> fits appendable (rs_fields e) (rs_fields s).
Proof.
  intros s e. unfold compatible_schemas. rewrite (fits_covers (compatible append_options) appendable); [|intros x y _; apply appendable_iff]. split; [intros [H _]; exact H|]. intros H. split; [exact H|discriminate].
Qed.

Lemma well_iff : forall f, well f <-> NoDup (map r_name (r_children f)) /\
  match fkind f with KStruct => True | KList _ => exists x, r_children f = [x] | KLeaf => r_children f = [] end /\ Forall well (r_children f).
Proof. intros [a c]. split; [intros H; inversion H; subst; auto|intros (A & B & C); constructor; assumption]. Qed.
Lemma well_dt : forall f, well f -> dt_ok f = true.
Proof.
  induction f as [a c IH] using rfield_ind'. intros W. apply well_iff in W as (_ & K & F). unfold fkind in K. cbn [dt_ok r_attrs r_children] in *.
  apply andb_true_iff. split.
  - destruct (kind_of (a_type a)); auto. destruct K as [x ->]. reflexivity.
  - apply forallb_forall. intros x J. rewrite Forall_forall in IH, F. auto.
Qed.
Lemma lookup_in : forall n l f, lookup n l = Some f -> In f l /\ r_name f = n.
Proof. intros n l f H. unfold lookup in H. apply find_some in H as [J E]. apply String.eqb_eq in E. auto. Qed.
Lemma lookup_found : forall l f, NoDup (map r_name l) -> In f l -> lookup (r_name f) l = Some f.
Proof.
  intros l f D J. unfold lookup. destruct (find (fun g => String.eqb (r_name g) (r_name f)) l) as [g|] eqn:E.
  - apply find_some in E as [G E]. apply String.eqb_eq in E. f_equal. apply (in_name l); auto.
  - apply (find_none _ _ E) in J. rewrite String.eqb_refl in J. discriminate.
Qed.

Lemma by_field_struct : forall ts ao co f, f_by_field ts (RF ao co) f =
  if negb (String.eqb (r_name f) (a_name ao)) then Err
  else if negb (dt_ok f && dt_ok (RF ao co)) then Panic
  else match fkind f, kind_of (a_type ao) with
       | KStruct, KStruct => obnd ((fix go (l : list rfield) : outcome (list rfield) :=
                        match l with
                        | [] => Ok []
                        | x :: t => match lookup (r_name x) (r_children f) with
                                    | None => Err
                                    | Some c => obnd (f_by_field ts x c) (fun c' => obnd (go t) (fun t' => Ok (c' :: t')))
                                    end
                        end) co) (fun c' => Ok (RF (r_attrs f) c'))
       | KList a, KList b => if Bool.eqb a b
               then match r_children f, co with c :: _, x :: _ => obnd (f_by_field ts x c) (fun c' => Ok (RF (r_attrs f) [c'])) | _, _ => Panic end
               else leaf_by_field ts f (RF ao co)
       | _, _ => leaf_by_field ts f (RF ao co)
       end.
Proof. reflexivity. Qed.
Lemma by_field_eq : forall ts ao co f, f_by_field ts (RF ao co) f =
  if negb (String.eqb (r_name f) (a_name ao)) then Err
  else if negb (dt_ok f && dt_ok (RF ao co)) then Panic
  else match fkind f, kind_of (a_type ao) with
       | KStruct, KStruct => obnd (project_by_schema true ts (r_children f) co) (fun c' => Ok (RF (r_attrs f) c'))
       | KList a, KList b => if Bool.eqb a b
               then match r_children f, co with c :: _, x :: _ => obnd (f_by_field ts x c) (fun c' => Ok (RF (r_attrs f) [c'])) | _, _ => Panic end
               else leaf_by_field ts f (RF ao co)
       | _, _ => leaf_by_field ts f (RF ao co)
       end.
Proof.
  intros ts ao co f. rewrite by_field_struct. destruct (negb _); [reflexivity|]. destruct (negb _); [reflexivity|].
  destruct (fkind f), (kind_of (a_type ao)); try reflexivity. f_equal.
  induction co as [|x t IH]; cbn [project_by_schema]; [reflexivity|]. destruct (lookup (r_name x) (r_children f)); [|reflexivity].
  rewrite IH. reflexivity.
Qed.
Lemma leaf_ok : forall f o g, leaf_by_field false f o = Ok g -> g = f /\ a_type (r_attrs f) = a_type (r_attrs o) /\ fkind f = KLeaf.
Proof.
  intros f o g H. unfold leaf_by_field in H. destruct (fkind f) eqn:K, (fkind o); try discriminate.
  destruct (String.eqb_spec (a_type (r_attrs f)) (a_type (r_attrs o))) as [E|E]; [injection H as <-; auto|].
  destruct (cls (a_type (r_attrs f))), (cls (a_type (r_attrs o))); discriminate.
Qed.
Lemma kind_struct : forall t, kind_of t = KStruct <-> t = "struct"%string.
Proof.
  intros t. unfold kind_of. destruct (String.eqb_spec t "struct") as [E|E]; [tauto|].
  destruct (_ || _); [split; [discriminate|congruence]|]. destruct (_ || _); split; try discriminate; congruence.
Qed.
Lemma pbs_ok : forall (e : rfield -> rfield -> rfield -> Prop) ts l t u, project_by_schema true ts l t = Ok u ->
  (forall x f g, In x t -> lookup (r_name x) l = Some f -> f_by_field ts x f = Ok g -> e x f g) ->
  Forall2 (fun x g => exists f, lookup (r_name x) l = Some f /\ f_by_field ts x f = Ok g /\ e x f g) t u.
Proof.
  intros e ts l. induction t as [|x t IH]; intros u H E; cbn [project_by_schema] in H.
  - injection H as <-. constructor.
  - destruct (lookup (r_name x) l) as [f|] eqn:L; [|discriminate]. destruct (f_by_field ts x f) as [g| |] eqn:G; try discriminate. cbn [obnd] in H.
    destruct (project_by_schema true ts l t) as [v| |] eqn:V; try discriminate. cbn [obnd] in H. injection H as <-. constructor.
    + exists f. repeat split; auto. apply E; auto. left. reflexivity.
    + apply IH; [reflexivity|]. intros y g' k J. apply E. right. exact J.
Qed.
(* soundness *)
Lemma by_field_sound : forall o f g, well f -> well o -> f_by_field false o f = Ok g -> relabelled f o g.
Proof.
  induction o as [ao co IH] using rfield_ind'. intros [af cf] g Wf Wo H. rewrite by_field_eq in H.
  destruct (String.eqb_spec (r_name (RF af cf)) (a_name ao)) as [N|N]; [|discriminate]. cbn [negb] in H. cbn in N.
  rewrite (well_dt _ Wf), (well_dt _ Wo) in H. cbn [negb andb] in H.
  apply well_iff in Wf as (Df & Kf & Ff), Wo as (Do & Ko & Fo). unfold fkind in *. cbn [r_attrs r_children] in *.
  assert (Leaf : leaf_by_field false (RF af cf) (RF ao co) = Ok g -> relabelled (RF af cf) (RF ao co) g).
  { intros L. apply leaf_ok in L as (-> & T & K). unfold fkind in K. cbn [r_attrs] in *. rewrite K in Kf. rewrite <- T, K in Ko. subst cf co.
    constructor; [exact N|split; [rewrite T; reflexivity|auto]|constructor]. }
  destruct (kind_of (a_type af)) as [|ba|] eqn:KA, (kind_of (a_type ao)) as [|bo|] eqn:KO; try (apply Leaf; exact H).
  - destruct (project_by_schema true false cf co) as [u| |] eqn:U; try discriminate. cbn [obnd] in H. injection H as <-.
    constructor; [exact N|split; [congruence|intros Q; congruence]|].
    apply (pbs_ok (fun x f g => relabelled f x g)) in U.
    + clear -U. induction U as [|x y t u (f & L & _ & R) _ IHU]; econstructor; eauto. apply lookup_in in L as [J _]. exact J.
    + intros x f g' J L G. apply lookup_in in L as [Jf _]. rewrite Forall_forall in IH, Ff, Fo. apply IH; auto.
  - destruct (Bool.eqb ba bo) eqn:B; [|apply Leaf; exact H]. apply eqb_prop in B. subst bo. destruct Kf as [c ->], Ko as [x ->].
    destruct (f_by_field false x c) as [g'| |] eqn:G; try discriminate. cbn [obnd] in H. injection H as <-.
    constructor; [exact N|split; [congruence|intros Q; congruence]|]. econstructor; [left; reflexivity| |constructor].
    inversion IH; subst. inversion Ff; subst. inversion Fo; subst. auto.
Qed.
Lemma project_sound : forall l t u, Forall well l -> Forall well t -> project_by_schema true false l t = Ok u -> relabelleds l t u.
Proof.
  intros l t u Wl Wt H. apply (pbs_ok (fun x f g => relabelled f x g)) in H.
  - clear -H. induction H as [|x y t u (f & L & _ & R) _ IHU]; econstructor; eauto. apply lookup_in in L as [J _]. exact J.
  - intros x f g J L G. apply lookup_in in L as [Jf _]. rewrite Forall_forall in Wl, Wt. apply by_field_sound; auto.
Qed.
(* completeness *)
Lemma project_complete : forall o l t, NoDup (map r_name l) ->
  (forall x f, In x t -> In f l -> r_name f = r_name x -> compatible o f x -> exists g, f_by_field false x f = Ok g) ->
  NoDup (map r_name t) -> covers o (compatible o) l t -> exists u, project_by_schema true false l t = Ok u.
Proof.
  intros o l t D E Dt (A & B & _).
  assert (P : forall x, In x t -> exists f, lookup (r_name x) l = Some f /\ exists g, f_by_field false x f = Ok g).
  { intros x J. destruct (A x J) as (f & Jf & N). exists f. split; [rewrite <- N; apply lookup_found; auto|].
    destruct (B f Jf) as [(y & Jy & Ny & C)|[K _]]; [|destruct (K x J); auto].
    assert (y = x) as -> by (apply (in_name t); auto; congruence). apply E; auto. }
  clear -P. induction t as [|x t IH]; cbn [project_by_schema]; [eauto|].
  destruct (P x (or_introl eq_refl)) as (f & -> & g & ->). destruct IH as [u ->]; [intros y J; apply P; right; exact J|]. cbn [obnd]. eauto.
Qed.
Lemma by_field_complete : forall o x f, well f -> well x -> compatible o f x -> exists g, f_by_field false x f = Ok g.
Proof.
  intros o. induction x as [ao co IH] using rfield_ind'. intros [af cf] Wf Wo C. rewrite by_field_eq.
  apply compatible_iff in C as [(N & T & _) Cc]. cbn [r_attrs r_children] in *.
  replace (String.eqb (r_name (RF af cf)) (a_name ao)) with true by (symmetry; apply String.eqb_eq; symmetry; exact N). cbn [negb].
  rewrite (well_dt _ Wf), (well_dt _ Wo). cbn [negb andb].
  apply well_iff in Wf as (Df & Kf & Ff), Wo as (Do & Ko & Fo). unfold fkind in *. cbn [r_attrs r_children] in *. rewrite T in *.
  destruct (kind_of (a_type af)) as [|b|] eqn:K.
  - destruct (project_complete o cf co Df) with (2 := Do) (3 := Cc) as [u ->]; [|cbn [obnd]; eauto].
    intros x f J Jf _ C. rewrite Forall_forall in IH, Ff, Fo. apply IH; auto.
  - rewrite eqb_reflx. destruct Kf as [c ->], Ko as [x ->]. destruct Cc as (A & B & _).
    destruct (B c (or_introl eq_refl)) as [(y & [<-|[]] & _ & C)|[Q _]].
    + inversion IH as [|? ? Hx _]; subst. inversion Ff; subst. inversion Fo; subst. destruct (Hx c) as [g ->]; auto. cbn [obnd]. eauto.
    + exfalso. destruct (A x (or_introl eq_refl)) as (c' & [<-|[]] & E). apply (Q x (or_introl eq_refl)). congruence.
  - unfold leaf_by_field, fkind. cbn [r_attrs]. rewrite T, K, String.eqb_refl. eauto.
Qed.
(* the fields of the result, by paths *)
Lemma relabelled_one : forall f x y, relabelled f x y -> r_name y = r_name f /\ r_name x = r_name f /\ r_attrs y = r_attrs f /\ relabelleds (r_children f) (r_children x) (r_children y).
Proof. intros f x y H. inversion H; subst. cbn. auto. Qed.
Lemma relabelled_paths : forall y l t u, In y u -> relabelleds l t u -> exists f x, In f l /\ In x t /\ relabelled f x y.
Proof.
  intros y l t u J H. induction H as [l|l f x z t u Jf R H IH]; [destruct J|]. destruct J as [->|J].
  - exists f, x. cbn. auto.
  - destruct (IH J) as (f' & x' & A & B & C). exists f', x'. cbn. auto.
Qed.
Lemma relabelled_from : forall x l t u, In x t -> relabelleds l t u -> exists f y, In f l /\ In y u /\ relabelled f x y.
Proof.
  intros y l t u J H. induction H as [l|l f x z t u Jf R H IH]; [destruct J|]. destruct J as [->|J].
  - exists f, z. cbn. auto.
  - destruct (IH J) as (f' & x' & A & B & C). exists f', x'. cbn. auto.
Qed.
Lemma has_iff : forall l p a, has l p a <-> exists f, In f l /\ ((p = [r_name f] /\ a = r_attrs f) \/ exists q, p = r_name f :: q /\ has (r_children f) q a).
Proof.
  intros l p a. split.
  - intros [g [H E]]. apply at_iff in H as (f & J & [[-> ->]|(q & -> & A)]); exists f; (split; [exact J|]); [left; auto|right; exists q; split; [reflexivity|exists g; auto]].
  - intros (f & J & [[-> ->]|(q & -> & g & A & E)]); [exists f|exists g]; (split; [apply at_iff; exists f; split; [exact J|]|auto]); eauto.
Qed.
Lemma relabelled_has : forall p l t u, schema_well l -> schema_well t -> relabelleds l t u ->
  forall a, has u p a <-> has l p a /\ exists b, has t p b.
Proof.
  induction p as [|n p IH]; intros l t u Wl Wt H a.
  - split.
    + intros [g [A _]]. destruct (at_nopath _ _ A).
    + intros [[g [A _]] _]. destruct (at_nopath _ _ A).
  - assert (Q : forall f x y, In f l -> In x t -> relabelled f x y -> (has (r_children y) p a <-> has (r_children f) p a /\ exists b, has (r_children x) p b)).
    { intros f x y Jf Jx R. apply relabelled_one in R as (_ & _ & _ & R). destruct Wl as [_ Wl], Wt as [_ Wt]. rewrite Forall_forall in Wl, Wt.
      apply IH; auto; [apply Wl in Jf; apply well_iff in Jf as (A & _ & B)|apply Wt in Jx; apply well_iff in Jx as (A & _ & B)]; split; assumption. }
    rewrite (has_iff u), (has_iff l). split.
    + intros (y & Jy & Hy). destruct (relabelled_paths y l t u Jy H) as (f & x & Jf & Jx & R). pose proof (Q f x y Jf Jx R) as Qq.
      apply relabelled_one in R as (Ny & Nx & Ea & _). destruct Hy as [[E ->]|(q & E & Hq)].
      * split; [exists f; split; [exact Jf|left; split; congruence]|]. exists (r_attrs x). apply has_iff. exists x. split; [exact Jx|left; split; congruence].
      * injection E as -> ->. destruct (proj1 Qq Hq) as [Hf [b Hb]]. split; [exists f; split; [exact Jf|right; exists q; split; [congruence|exact Hf]]|].
        exists b. apply has_iff. exists x. split; [exact Jx|right; exists q; split; [congruence|exact Hb]].
    + intros [(f & Jf & Hf) (b & Hb)]. apply has_iff in Hb as (x & Jx & Hx). destruct (relabelled_from x l t u Jx H) as (f' & y & Jf' & Jy & R).
      pose proof (Q f' x y Jf' Jx R) as Qq. apply relabelled_one in R as (Ny & Nx & Ea & _).
      assert (r_name f = n) as Nf by (destruct Hf as [[E _]|(q & E & _)]; congruence).
      assert (r_name x = n) as Nx' by (destruct Hx as [[E _]|(q & E & _)]; congruence).
      assert (f' = f) as -> by (apply (in_name l); [apply Wl|exact Jf'|exact Jf|congruence]).
      exists y. split; [exact Jy|]. destruct Hf as [[E ->]|(q & E & Hq)].
      * left. split; [congruence|congruence].
      * right. injection E as _ ->. exists q. split; [congruence|]. destruct Hx as [[E' _]|(q' & E' & Hq')].
        -- injection E' as _ ->. destruct Hq as [g [A _]]. destruct (at_nopath _ _ A).
        -- injection E' as _ <-. apply Qq. split; [exact Hq|eauto].
Qed.
Theorem write_schema_exact : forall e s, tidy_schema e -> tidy_schema s -> schema_well (rs_fields e) -> schema_well (rs_fields s) ->
  match write_schema e s with
  | Ok w => fits appendable (rs_fields e) (rs_fields s) /\ relabelleds (rs_fields e) (rs_fields s) w /\
            forall p a, has w p a <-> has (rs_fields e) p a /\ exists b, has (rs_fields s) p b
  | Err => ~ fits appendable (rs_fields e) (rs_fields s)
  | Panic => False
  end.
Proof.
  intros e s Te Ts We Ws. unfold write_schema. destruct (check_exact append_options s e Ts Te) as [[C ->]|[C (d & _ & ->)]]; [|rewrite <- appendable_schemas; exact C].
  destruct (project_complete append_options (rs_fields e) (rs_fields s)) as [u U].
  - apply We.
  - intros x f J Jf _ Cf. destruct We as [_ We], Ws as [_ Ws]. rewrite Forall_forall in We, Ws. apply (by_field_complete append_options); auto.
  - apply Ws.
  - apply C.
  - rewrite U. apply project_sound in U; [|apply We|apply Ws]. split; [apply appendable_schemas; exact C|]. split; [exact U|]. intros p a. apply relabelled_has; auto.
Qed.
(* so every column is written with the id the dataset has for it *)
Theorem write_schema_ids : forall e s w p a, tidy_schema e -> tidy_schema s -> schema_well (rs_fields e) -> schema_well (rs_fields s) ->
  write_schema e s = Ok w -> has w p a -> has (rs_fields e) p a.
Proof. intros e s w p a Te Ts We Ws H J. pose proof (write_schema_exact e s Te Ts We Ws) as X. rewrite H in X. apply X. exact J. Qed.
Example ex_write : write_schema ex_expected ex_actual =
  Ok [RF (mk "s" "struct" 1 true) [RF (mk "y" "string" 3 true) []]; RF (mk "i" "int64" 0 false) []] /\ schema_well (rs_fields ex_expected) /\ schema_well (rs_fields ex_actual).
Proof.
  assert (T : forall n i b m, m <> "struct"%string -> kind_of m = KLeaf -> well (RF (mk n m i b) [])).
  { intros n i b m N K. constructor; [constructor| |constructor]. cbn [mk a_type]. rewrite K. reflexivity. }
  assert (D : forall a b : string, a <> b -> NoDup [a; b]).
  { intros a b N. constructor; [intros [E|[]]; apply N; congruence|]. constructor; [intros []|constructor]. }
  split; [reflexivity|]. split; split.
  - cbn. repeat (constructor; [cbn; intuition discriminate|]). constructor.
  - apply Forall_cons; [apply T; [discriminate|reflexivity]|]. apply Forall_cons; [|apply Forall_cons; [apply T; [discriminate|reflexivity]|apply Forall_nil]].
    constructor; [apply D; discriminate|exact Logic.I|]. repeat (apply Forall_cons; [apply T; [discriminate|reflexivity]|]). apply Forall_nil.
  - apply D. discriminate.
  - apply Forall_cons; [|apply Forall_cons; [apply T; [discriminate|reflexivity]|apply Forall_nil]].
    constructor; [constructor; [intros []|constructor]|exact Logic.I|]. apply Forall_cons; [apply T; [discriminate|reflexivity]|apply Forall_nil].
Qed.
