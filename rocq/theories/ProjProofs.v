(* C92, C93: projections of schemas and dropping columns. *)
From Coq Require Import List Arith ZArith Bool Lia String.
From Verif Require Import Lib ReadParamsModel SchemaModel SchemaProofs ProjModel.
Import ListNotations.
Open Scope list_scope.

(* ---- specification: a schema as a set of paths ---- *)
(* the field at the end of a path of names *)
Inductive at_path : list rfield -> list string -> rfield -> Prop :=
| at_here : forall l f, In f l -> at_path l [r_name f] f
| at_below : forall l f p g, In f l -> at_path (r_children f) p g -> at_path l (r_name f :: p) g.
Definition has (l : list rfield) (p : list string) (a : attrs) : Prop := exists f, at_path l p f /\ r_attrs f = a.
Definition leaf (l : list rfield) (p : list string) (a : attrs) : Prop := exists f, at_path l p f /\ r_attrs f = a /\ r_children f = [].
Definition prefix (p q : list string) : Prop := exists r, q = p ++ r.
(* a field belongs to a projection on columns: it is on the way to one of them, or below it *)
Definition selected (cols : list (list string)) (p : list string) : Prop := exists c, In c cols /\ (prefix p c \/ prefix c p).
(* schemas: fields next to each other have different names, lists have one child, leaves none *)
Inductive well : rfield -> Prop :=
| well_intro : forall a c, NoDup (map r_name c) ->
    match kind_of (a_type a) with KStruct => True | KList _ => exists x, c = [x] | KLeaf => c = [] end ->
    Forall well c -> well (RF a c).
Definition schema_well (l : list rfield) : Prop := NoDup (map r_name l) /\ Forall well l.

(* ---- paths ---- *)
Lemma at_nil : forall p f, ~ at_path [] p f.
Proof. intros p f H. inversion H; subst; contradiction. Qed.
Lemma has_nil : forall p a, ~ has [] p a.
Proof. intros p a [f [H _]]. exact (at_nil _ _ H). Qed.
Lemma at_nopath : forall l f, ~ at_path l [] f.
Proof. intros l f H. inversion H. Qed.
Lemma at_iff : forall l p g, at_path l p g <-> exists f, In f l /\ ((p = [r_name f] /\ g = f) \/ exists q, p = r_name f :: q /\ at_path (r_children f) q g).
Proof.
  intros l p g. split.
  - intros H. destruct H as [l f J|l f q g J A]; exists f; (split; [exact J|]); eauto.
  - intros [f [J [[-> ->]|[q [-> A]]]]]; [constructor; exact J|eapply at_below; eassumption].
Qed.
Lemma at_one : forall f p g, at_path [f] p g <-> (p = [r_name f] /\ g = f) \/ exists q, p = r_name f :: q /\ at_path (r_children f) q g.
Proof. intros f p g. rewrite at_iff. split; [intros [h [[<-|[]] H]]; exact H|intros H; exists f; split; [left; reflexivity|exact H]]. Qed.
Lemma at_in : forall l p g, at_path l p g <-> exists f, In f l /\ at_path [f] p g.
Proof. intros l p g. rewrite at_iff. split; intros [f [J H]]; exists f; (split; [exact J|]); apply at_one; exact H. Qed.
Lemma at_cons : forall f l p g, at_path (f :: l) p g <-> at_path [f] p g \/ at_path l p g.
Proof.
  intros f l p g. rewrite at_in, (at_in l). split.
  - intros [h [[<-|J] H]]; eauto.
  - intros [H|[h [J H]]]; [exists f|exists h]; (split; [cbn; auto|exact H]).
Qed.
Lemma has_cons : forall f l p a, has (f :: l) p a <-> has [f] p a \/ has l p a.
Proof.
  intros f l p a. unfold has. split.
  - intros [g [H E]]. apply at_cons in H as [H|H]; [left|right]; eauto.
  - intros [[g [H E]]|[g [H E]]]; exists g; split; auto; apply at_cons; auto.
Qed.
Lemma has_app : forall l m p a, has (l ++ m) p a <-> has l p a \/ has m p a.
Proof.
  induction l as [|f l IH]; intros m p a; cbn [app].
  - split; [auto|intros [H|H]; [destruct (has_nil _ _ H)|exact H]].
  - rewrite has_cons, IH, (has_cons f l). tauto.
Qed.
Lemma has_one : forall f p a, has [f] p a <-> (p = [r_name f] /\ a = r_attrs f) \/ exists q, p = r_name f :: q /\ has (r_children f) q a.
Proof.
  intros f p a. unfold has. split.
  - intros [g [H E]]. apply at_one in H as [[-> ->]|[q [-> H]]]; [left; auto|right; eauto].
  - intros [[-> ->]|[q [-> [g [H E]]]]].
    + exists f. split; [apply at_one; auto|reflexivity].
    + exists g. split; [apply at_one; right; eauto|exact E].
Qed.
Lemma has_nopath : forall l a, ~ has l [] a.
Proof. intros l a [f [H _]]. exact (at_nopath _ _ H). Qed.
Lemma has_in : forall l p a, has l p a <-> exists f, In f l /\ has [f] p a.
Proof.
  induction l as [|f l IH]; intros p a; [split; [intros H; destruct (has_nil _ _ H)|intros [f [[] _]]]|]. rewrite has_cons, IH. split.
  - intros [H|[g [J H]]]; [exists f; split; [left; reflexivity|exact H]|exists g; split; [right|]; assumption].
  - intros [g [[<-|J] H]]; [left; exact H|right; eauto].
Qed.
Lemma has_head : forall f p a, has [f] p a -> exists q, p = r_name f :: q.
Proof. intros f p a H. apply has_one in H as [[-> _]|[q [-> _]]]; eauto. Qed.
Lemma prefix_nil : forall p, prefix [] p.
Proof. intros p. exists p. reflexivity. Qed.
Lemma prefix_cons : forall n m p q, prefix (n :: p) (m :: q) <-> n = m /\ prefix p q.
Proof. intros n m p q. split; [intros [r E]; injection E as -> ->; split; [reflexivity|exists r; reflexivity]|intros [-> [r ->]]; exists r; reflexivity]. Qed.
Lemma prefix_of_nil : forall p, prefix p [] -> p = [].
Proof. intros p [r E]. destruct p; [reflexivity|discriminate]. Qed.
Lemma prefix_refl : forall p, prefix p p.
Proof. intros p. exists []. symmetry. apply app_nil_r. Qed.
Lemma prefix_trans : forall p q r, prefix p q -> prefix q r -> prefix p r.
Proof. intros p q r [x ->] [y ->]. exists (x ++ y). rewrite app_assoc. reflexivity. Qed.
Lemma prefix_antisym : forall p q, prefix p q -> prefix q p -> p = q.
Proof. intros p q [x ->] [y E]. rewrite <- app_assoc in E. rewrite <- (app_nil_r p) in E at 1. apply app_inv_head in E. destruct x; [rewrite app_nil_r; reflexivity|discriminate]. Qed.
Lemma r_eta : forall f, f = RF (r_attrs f) (r_children f).
Proof. intros [a c]. reflexivity. Qed.
Lemma well_inv : forall f, well f -> NoDup (map r_name (r_children f)) /\ Forall well (r_children f) /\
  match fkind f with KStruct => True | KList _ => exists x, r_children f = [x] | KLeaf => r_children f = [] end.
Proof. intros f H. inversion H as [a c N K W]; subst. auto. Qed.
Lemma same_name : forall l f g, NoDup (map r_name l) -> In f l -> In g l -> r_name f = r_name g -> f = g.
Proof.
  induction l as [|x l IH]; intros f g N F G E; [contradiction|]. inversion N as [|? ? NI N']; subst. destruct F as [<-|F], G as [<-|G]; auto.
  - exfalso. apply NI. rewrite E. apply in_map. exact G.
  - exfalso. apply NI. rewrite <- E. apply in_map. exact F.
Qed.
Lemma at_name : forall f n p g, at_path [f] (n :: p) g -> r_name f = n.
Proof. intros f n p g H. apply at_one in H as [[E _]|[q [E _]]]; congruence. Qed.
Lemma at_head : forall l f p g, NoDup (map r_name l) -> In f l -> (at_path l (r_name f :: p) g <-> at_path [f] (r_name f :: p) g).
Proof.
  intros l f p g N J. rewrite at_in. split; [|eauto]. intros [h [K H]]. rewrite (same_name l f h) by (auto; symmetry; eapply at_name; eauto). rewrite (same_name l f h) in H by (auto; symmetry; eapply at_name; eauto). exact H.
Qed.
Lemma at_descend : forall l n p g, at_path l (n :: p) g -> exists x, In x l /\ r_name x = n /\ (p = [] \/ exists g, at_path (r_children x) p g).
Proof. intros l n p g H. apply at_iff in H as [x [J [[E _]|[q [E A]]]]]; injection E as -> ->; exists x; eauto. Qed.
Lemma has_head_iff : forall l f p a, NoDup (map r_name l) -> In f l -> (has l (r_name f :: p) a <-> has [f] (r_name f :: p) a).
Proof. intros l f p a N J. unfold has. split; intros [g [H E]]; exists g; (split; [apply (at_head l f p g N J); exact H|exact E]). Qed.

Lemma lookup_some : forall n l f, NoDup (map r_name l) -> (lookup n l = Some f <-> In f l /\ r_name f = n).
Proof.
  intros n l f N. unfold lookup. split.
  - intros H. apply find_some in H as [H E]. apply String.eqb_eq in E. auto.
  - intros [J E]. destruct (find (fun f => String.eqb (r_name f) n) l) as [g|] eqn:G.
    + apply find_some in G as [G1 G2]. apply String.eqb_eq in G2. f_equal. eapply same_name; eauto. congruence.
    + apply (find_none _ _ G) in J. apply String.eqb_neq in J. congruence.
Qed.
Lemma lookup_none : forall n l, lookup n l = None <-> ~ In n (map r_name l).
Proof.
  intros n l. unfold lookup. split.
  - intros H J. apply in_map_iff in J as [f [E J]]. apply (find_none _ _ H) in J. apply String.eqb_neq in J. auto.
  - intros H. destruct (find (fun f => String.eqb (r_name f) n) l) as [g|] eqn:G; [|reflexivity]. apply find_some in G as [G1 G2]. apply String.eqb_eq in G2. destruct H. subst n. apply in_map. exact G1.
Qed.
Theorem field_at_path : forall p l f, schema_well l -> (field_at l p = Some f <-> at_path l p f).
Proof.
  induction p as [|n p IH]; intros l f [N W]; cbn [field_at]; [split; [discriminate|intros H; destruct (at_nopath _ _ H)]|].
  destruct (lookup n l) as [g|] eqn:L.
  - apply (lookup_some _ _ _ N) in L as [J <-]. assert (WG : well g) by (rewrite Forall_forall in W; auto). destruct (well_inv g WG) as [NG [WC _]].
    rewrite (at_head l g p f N J), at_one. destruct p as [|m p].
    + split; [intros E; injection E as <-; left; auto|]. intros [[_ ->]|[q [E H]]]; [reflexivity|]. injection E as <-. destruct (at_nopath _ _ H).
    + rewrite (IH (r_children g) f (conj NG WC)). split; [intros H; right; eauto|]. intros [[E _]|[q [E H]]]; [discriminate|]. injection E as <-. exact H.
  - split; [discriminate|]. intros H. exfalso. apply lookup_none in L. apply L. destruct (at_descend _ _ _ _ H) as [x [J [<- _]]]. apply in_map. exact J.
Qed.

(* ---- parts of a field ---- *)
Inductive sub : rfield -> rfield -> Prop :=
| sub_intro : forall a c d, NoDup (map r_name c) -> (match kind_of (a_type a) with KList _ => c <> [] | _ => True end) ->
    Forall (fun x => exists y, In y d /\ sub x y) c -> sub (RF a c) (RF a d).
Definition subs (c d : list rfield) : Prop := NoDup (map r_name c) /\ Forall (fun x => exists y, In y d /\ sub x y) c.
Lemma sub_attrs : forall x y, sub x y -> r_attrs x = r_attrs y.
Proof. intros x y H. inversion H. reflexivity. Qed.
Lemma sub_name : forall x y, sub x y -> r_name x = r_name y.
Proof. intros x y H. unfold r_name. rewrite (sub_attrs _ _ H). reflexivity. Qed.
Lemma sub_refl : forall f, well f -> sub f f.
Proof.
  induction f as [a c IH] using rfield_ind'. intros W. inversion W as [? ? N K WC]; subst. constructor; auto.
  - destruct (kind_of (a_type a)); auto. destruct K as [x ->]. discriminate.
  - rewrite Forall_forall in *. intros x J. exists x. auto.
Qed.
Lemma sub_well : forall f g, well g -> sub f g -> well f.
Proof.
  induction f as [a c IH] using rfield_ind'. intros g W S. inversion S as [? ? d N K F]; subst. inversion W as [? ? ND KD WD]; subst. rewrite Forall_forall in *. constructor; auto.
  - destruct (kind_of (a_type a)); auto.
    + destruct KD as [y ->]. destruct c as [|x1 [|x2 c]]; [congruence|eauto|]. exfalso.
      destruct (F x1 (or_introl eq_refl)) as [y1 [[<-|[]] S1]]. destruct (F x2 (or_intror (or_introl eq_refl))) as [y2 [[<-|[]] S2]].
      cbn in N. inversion N as [|? ? NI _]; subst. apply NI. left. rewrite (sub_name _ _ S1), (sub_name _ _ S2). reflexivity.
    + subst d. destruct c as [|x c]; [reflexivity|]. destruct (F x (or_introl eq_refl)) as [y [[] _]].
  - rewrite Forall_forall. intros x J. destruct (F x J) as [y [JY SY]]. exact (IH x J y (WD y JY) SY).
Qed.
Lemma sub_has : forall f g p a, sub f g -> has [f] p a -> has [g] p a.
Proof.
  induction f as [b c IH] using rfield_ind'. intros g p a S H. inversion S as [? ? d N K F]; subst. rewrite Forall_forall in *. apply has_one in H as [[-> ->]|[q [-> H]]]; apply has_one.
  - left. auto.
  - right. exists q. split; [reflexivity|]. cbn [r_children] in *. apply has_in in H as [x [J H]]. destruct (F x J) as [y [JY SY]]. apply has_in. exists y. split; [exact JY|]. eapply IH; eauto.
Qed.
Lemma subs_has : forall c d p a, subs c d -> has c p a -> has d p a.
Proof. intros c d p a [_ F] H. apply has_in in H as [x [J H]]. rewrite Forall_forall in F. destruct (F x J) as [y [JY S]]. apply has_in. exists y. split; [exact JY|]. eapply sub_has; eauto. Qed.
Lemma dt_ok_well : forall f, well f -> dt_ok f = true.
Proof.
  induction f as [a c IH] using rfield_ind'. intros W. inversion W as [? ? N K WC]; subst. cbn [dt_ok]. apply andb_true_iff. split.
  - destruct (kind_of (a_type a)); auto. destruct K as [x ->]. reflexivity.
  - apply forallb_forall. intros x J. rewrite Forall_forall in *. auto.
Qed.

(* ---- merging ---- *)
Lemma upsert_spec : forall d x y acc, NoDup (map r_name d) -> In y d -> sub x y -> subs acc d ->
  (forall s, In s acc -> sub s y -> exists m, merge_f x s = Ok m /\ sub m y /\ forall p a, has [m] p a <-> has [x] p a \/ has [s] p a) ->
  exists r, upsert (merge_f x) x acc = Ok r /\ subs r d /\ (forall p a, has r p a <-> has [x] p a \/ has acc p a) /\ (forall n, In n (map r_name r) -> n = r_name x \/ In n (map r_name acc)).
Proof.
  intros d x y acc ND JY SX. induction acc as [|c t IH]; intros [NA FA] IM.
  - exists [x]. split; [reflexivity|]. split; [split; [cbn; constructor; [auto|constructor]|constructor; [eauto|constructor]]|]. split.
    + intros p a. split; [auto|]. intros [H|H]; [exact H|destruct (has_nil _ _ H)].
    + intros n [<-|[]]. left; reflexivity.
  - cbn [upsert]. inversion NA as [|? ? NI NA']; subst. inversion FA as [|? ? [z [JZ SZ]] FA']; subst. destruct (String.eqb (r_name c) (r_name x)) eqn:E.
    + apply String.eqb_eq in E. assert (z = y) by (apply (same_name d); auto; rewrite <- (sub_name _ _ SZ), <- (sub_name _ _ SX); exact E). subst z.
      destruct (IM c (or_introl eq_refl) SZ) as [m [-> [SM HM]]]. cbn [obnd]. exists (m :: t). split; [reflexivity|].
      assert (EN : r_name m = r_name c) by (rewrite (sub_name _ _ SM), (sub_name _ _ SZ); reflexivity). split; [split|split].
      * cbn [map]. rewrite EN. exact NA.
      * constructor; eauto.
      * intros p a. rewrite (has_cons m t), HM, (has_cons c t). tauto.
      * cbn [map]. rewrite EN. intros n J. right. exact J.
    + destruct (IH (conj NA' FA') (fun s J => IM s (or_intror J))) as [r [-> [[NR FR] [HR NM]]]]. cbn [obnd]. exists (c :: r). split; [reflexivity|]. split; [split|split].
      * cbn [map]. constructor; [|exact NR]. intros J. apply NM in J as [J|J]; [apply String.eqb_neq in E; auto|auto].
      * constructor; eauto.
      * intros p a. rewrite (has_cons c r), HR, (has_cons c t). tauto.
      * cbn [map]. intros n [<-|J]; [right; left; reflexivity|]. apply NM in J as [J|J]; [left; exact J|right; right; exact J].
Qed.
Lemma merge_spec : forall o s g, well g -> sub o g -> sub s g ->
  exists m, merge_f o s = Ok m /\ sub m g /\ forall p a, has [m] p a <-> has [o] p a \/ has [s] p a.
Proof.
  induction o as [a co IH] using rfield_ind'. intros s g W SO SS. assert (WO := sub_well _ _ W SO). assert (WS := sub_well _ _ W SS).
  assert (DO := dt_ok_well _ WO). assert (DS := dt_ok_well _ WS). inversion SO as [? ? d NO KO FO]; subst. inversion SS as [? c ? NS KS FS]; subst. inversion W as [? ? ND KD WD]; subst.
  cbn [merge_f]. rewrite DO, DS. cbn [andb negb]. destruct (kind_of (a_type a)) eqn:K.
  - (* struct *)
    set (go := fix go (l : list rfield) (acc : list rfield) : outcome (list rfield) := match l with [] => Ok acc | x :: t => obnd (upsert (merge_f x) x acc) (go t) end).
    assert (LOOP : forall l acc, (forall x, In x l -> In x co) -> subs acc d -> exists r, go l acc = Ok r /\ subs r d /\ forall p b, has r p b <-> has l p b \/ has acc p b).
    { induction l as [|x t IHl]; intros acc IN SA.
      - exists acc. split; [reflexivity|]. split; [exact SA|]. intros p b. split; [auto|]. intros [H|H]; [destruct (has_nil _ _ H)|exact H].
      - assert (JX := IN x (or_introl eq_refl)). rewrite Forall_forall in FO, IH, WD. destruct (FO x JX) as [y [JY SY]].
        destruct (upsert_spec d x y acc ND JY SY SA) as [r [E [SR [HR _]]]].
        { intros s' _ SS'. exact (IH x JX s' y (WD y JY) SY SS'). }
        cbn [go]. rewrite E. cbn [obnd]. destruct (IHl r (fun z J => IN z (or_intror J)) SR) as [r' [E' [SR' HR']]]. exists r'. split; [exact E'|]. split; [exact SR'|].
        intros p b. rewrite HR', HR, (has_cons x t). tauto. }
    destruct (LOOP co c (fun x J => J) (conj NS FS)) as [r [E [[NR FR] HR]]]. fold go. rewrite E. cbn [obnd]. exists (RF a r). split; [reflexivity|]. split; [constructor; auto; rewrite K; exact Logic.I|].
    intros p b. rewrite !has_one. cbn [r_children r_attrs]. split.
    + intros [H|[q [-> H]]]; [auto|]. apply HR in H as [H|H]; eauto.
    + intros [[H|[q [-> H]]]|[H|[q [-> H]]]]; auto; right; exists q; (split; [reflexivity|]); apply HR; auto.
  - (* list *)
    destruct KD as [y ->]. inversion WO as [? ? _ KO' _]; subst. rewrite K in KO'. destruct KO' as [o0 ->]. inversion WS as [? ? _ KS' _]; subst. rewrite K in KS'. destruct KS' as [s0 ->].
    rewrite Bool.eqb_reflx. inversion IH as [|? ? IH0 _]; subst. inversion FO as [|? ? [y1 [[<-|[]] SO0]] _]; subst. inversion FS as [|? ? [y2 [[<-|[]] SS0]] _]; subst. inversion WD as [|? ? WY _]; subst.
    destruct (IH0 s0 y WY SO0 SS0) as [m [-> [SM HM]]]. cbn [obnd]. exists (RF a [m]). split; [reflexivity|]. split.
    + constructor; [cbn; constructor; [auto|constructor]|rewrite K; discriminate|]. constructor; [exists y; split; [left; reflexivity|exact SM]|constructor].
    + intros p b. rewrite !has_one. cbn [r_children r_attrs]. split.
      * intros [H|[q [-> H]]]; [auto|]. apply HM in H as [H|H]; eauto.
      * intros [[H|[q [-> H]]]|[H|[q [-> H]]]]; auto; right; exists q; (split; [reflexivity|]); apply HM; auto.
  - (* leaf *)
    subst d. assert (CO : co = []) by (destruct co as [|x co]; [reflexivity|]; inversion FO as [|? ? [y [[] _]] _]). assert (C : c = []) by (destruct c as [|x c]; [reflexivity|]; inversion FS as [|? ? [y [[] _]] _]). subst co c.
    rewrite String.eqb_refl. exists (RF a []). split; [reflexivity|]. split; [exact SS|]. intros p b. tauto.
Qed.

(* ---- projecting one field ---- *)
Lemma project_one : forall p f, well f -> (p = [] \/ exists g, at_path (r_children f) p g) ->
  sub (f_project p f) f /\ forall q a, has [f_project p f] q a <-> has [f] q a /\ (prefix q (r_name f :: p) \/ prefix (r_name f :: p) q).
Proof.
  induction p as [|n p IH]; intros f W E.
  - cbn [f_project]. split; [apply sub_refl; exact W|]. intros q a. split; [|tauto]. intros H. split; [exact H|]. destruct (has_head _ _ _ H) as [r ->]. right. apply prefix_cons. split; [reflexivity|apply prefix_nil].
  - destruct (well_inv f W) as [N [WC K]]. destruct E as [E|[g E]]; [discriminate|]. cbn [f_project].
    destruct (at_descend _ _ _ _ E) as [x [J [EN X]]]. rewrite (proj2 (lookup_some n (r_children f) x N) (conj J EN)). assert (WX : well x) by (rewrite Forall_forall in WC; auto). destruct (IH x WX X) as [SX HX]. split.
    + destruct f as [a c]. cbn [r_attrs r_children] in *. constructor; [cbn; constructor; [auto|constructor]|destruct (kind_of (a_type a)); auto; discriminate|]. constructor; [eauto|constructor].
    + intros q a. rewrite !has_one. cbn [r_name r_attrs r_children]. fold (r_name f). split.
      * intros [[-> ->]|[r [-> H]]].
        -- split; [auto|]. left. apply prefix_cons. split; [reflexivity|apply prefix_nil].
        -- apply HX in H as [H P]. rewrite EN in P. split; [right; exists r; split; [reflexivity|]; apply has_in; eauto|]. destruct P as [P|P]; [left|right]; apply prefix_cons; auto.
      * intros [[[-> ->]|[r [-> H]]] P]; [auto|]. right. exists r. split; [reflexivity|]. apply HX.
        assert (P' : prefix r (n :: p) \/ prefix (n :: p) r) by (destruct P as [P|P]; apply prefix_cons in P as [_ P]; auto).
        destruct r as [|m r]; [destruct (has_nopath _ _ H)|]. assert (m = n) by (destruct P' as [P'|P']; apply prefix_cons in P' as [? _]; congruence). subst m.
        rewrite <- EN in *. split; [|exact P']. apply (has_head_iff _ x r a N J). exact H.
Qed.

(* ---- C92: Schema::project ---- *)
Lemma has_name : forall l p a, has l p a -> exists f q, In f l /\ p = r_name f :: q.
Proof. intros l p a H. apply has_in in H as [f [J H]]. destruct (has_head _ _ _ H) as [q ->]. eauto. Qed.
Lemma project_from_spec : forall l err cols acc, schema_well l -> Forall (fun c => exists f, at_path l c f) cols -> subs acc l ->
  exists r, project_from l err cols acc = Ok r /\ subs r l /\ forall p a, has r p a <-> has acc p a \/ (has l p a /\ selected cols p).
Proof.
  intros l err. induction cols as [|c t IH]; intros acc [N W] F SA.
  - exists acc. split; [reflexivity|]. split; [exact SA|]. intros p a. split; [auto|]. intros [H|[_ [c [[] _]]]]. exact H.
  - inversion F as [|? ? [f E] F']; subst. destruct c as [|n p]; [destruct (at_nopath _ _ E)|].
    destruct (at_descend _ _ _ _ E) as [x [J [EN X]]]. assert (WX : well x) by (rewrite Forall_forall in W; auto). cbn [project_from]. rewrite (proj2 (lookup_some n l x N) (conj J EN)). cbv zeta.
    destruct (project_one p x WX X) as [SX HX].
    destruct (upsert_spec l (f_project p x) x acc N J SX SA) as [r [-> [SR [HR _]]]]; [intros s _ SS; apply merge_spec; assumption|]. cbn [obnd].
    destruct (IH r (conj N W) F' SR) as [r' [-> [SR' HR']]]. exists r'. split; [reflexivity|]. split; [exact SR'|]. intros q a. rewrite HR', HR, HX. split.
    + intros [[[H P]|H]|[H [c [JC P]]]]; auto.
      * right. split; [apply has_in; eauto|]. exists (n :: p). split; [left; reflexivity|]. rewrite <- EN. exact P.
      * right. split; [exact H|]. exists c. split; [right|]; assumption.
    + intros [H|[H [c [[<-|JC] P]]]]; auto.
      * left. left. rewrite EN. split; [|exact P]. destruct (has_name _ _ _ H) as [y [r0 [JY ->]]]. assert (EY : r_name y = n) by (destruct P as [P|P]; apply prefix_cons in P as [? _]; congruence).
        assert (y = x) by (eapply same_name; eauto; congruence). subst y. apply (has_head_iff l x r0 a N J). exact H.
      * right. split; [exact H|]. exists c. auto.
Qed.
Lemma subs_well : forall c d, schema_well d -> subs c d -> schema_well c.
Proof. intros c d [N W] [NC F]. split; [exact NC|]. rewrite Forall_forall in *. intros x J. destruct (F x J) as [y [JY S]]. eapply sub_well; eauto. Qed.
Theorem project_exact : forall l err cols, schema_well l -> Forall (fun c => exists f, at_path l c f) cols ->
  exists r, do_project err l cols = Ok r /\ schema_well r /\ forall p a, has r p a <-> has l p a /\ selected cols p.
Proof.
  intros l err cols W F. destruct (project_from_spec l err cols [] W F) as [r [E [S H]]]; [split; constructor|]. exists r. split; [exact E|]. split; [eapply subs_well; eauto|].
  intros p a. rewrite H. split; [intros [X|X]; [destruct (has_nil _ _ X)|exact X]|auto].
Qed.
