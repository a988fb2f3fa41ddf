(* What alter_columns does to the schema. *)
From Coq Require Import List Arith NArith ZArith Bool String Lia.
From Verif Require Import Lib ReadParamsModel SchemaModel SchemaProofs ProjModel ProjProofs AlterModel.
Import ListNotations.
Open Scope list_scope.
Local Open Scope Z_scope.

(* ---- specification ---- *)
(* an alteration is about the field with id i *)
Definition aims (old : list rfield) (i : Z) (al : alteration) : bool :=
  match field_at old (al_path al) with Some f => r_id f =? i | None => false end.
(* the last wish about field i *)
Definition wish {A} (get : alteration -> option A) (old : list rfield) (als : list alteration) (i : Z) : option A :=
  fold_left (fun acc al => if aims old i al then match get al with Some x => Some x | None => acc end else acc) als None.
(* every field keeps its place, id, type and the rest, and gets the wished name and nullability;
   a field in [sw] is replaced by another *)
Fixpoint edited (nm : Z -> option string) (nl : Z -> option bool) (sw : Z -> option rfield) (f : rfield) : rfield :=
  match f with
  | RF a c => match sw (a_id a) with
              | Some n => n
              | None => relabel (orelse (nm (a_id a)) (a_name a)) (orelse (nl (a_id a)) (a_null a)) (RF a (map (edited nm nl sw) c))
              end
  end.
(* the replacement of field g: wished name and nullability, the type of t, the parent of g, no metadata; [next0 ..] are its ids *)
Definition replaces (next0 : Z) (nm : Z -> option string) (nl : Z -> option bool) (g t f : rfield) : Prop :=
  shape f = shape (RF {| a_name := orelse (nm (r_id g)) (r_name g); a_id := 0; a_parent := 0; a_type := a_type (r_attrs t); a_meta := [];
                         a_enc := a_enc (r_attrs t); a_null := orelse (nl (r_id g)) (a_null (r_attrs g)); a_dict := None; a_storage := SDefault |} (r_children t)) /\
  a_parent (r_attrs f) = a_parent (r_attrs g) /\ (forall i, In i (r_field_ids [f]) -> next0 <= i) /\ NoDup (r_field_ids [f]).
(* an alteration that is not rejected on its own *)
Definition allowed (castable : rfield -> rfield -> bool) (old : list rfield) (al : alteration) : Prop :=
  exists f, field_at old (al_path al) = Some f /\ a_storage (r_attrs f) = SDefault /\
            (al_null al = Some false -> a_null (r_attrs f) = false) /\ (forall t, al_type al = Some t -> castable f t = true).
(* names at the top are distinct and without dots, ids are distinct and not negative *)
Definition valid (l : list rfield) : Prop :=
  NoDup (map r_name l) /\ (forall f, In f l -> has_dot (r_name f) = false) /\ NoDup (r_field_ids l) /\ (forall i, In i (r_field_ids l) -> 0 <= i).
(* the ids of a type are unset *)
Definition unset (t : rfield) : Prop := forall i, In i (r_field_ids [t]) -> i < 0.

(* ---- lemmas ---- *)
Lemma put_in_eq : forall i n a c, put_in i n (RF a c) = if a_id a =? i then Some n else omap (RF a) (put_at i n c).
Proof.
  intros i n a c. cbn [put_in]. destruct (a_id a =? i); [reflexivity|]. f_equal.
  induction c as [|x t IH]; cbn [put_at]; [reflexivity|]. destruct (put_in i n x); [reflexivity|]. rewrite <- IH. reflexivity.
Qed.
Lemma ids_of : forall f l, In f (fields_pre_order l) -> In (r_id f) (r_field_ids l).
Proof. intros f l H. unfold r_field_ids. apply in_map. exact H. Qed.
Lemma of_ids : forall i l, In i (r_field_ids l) -> exists f, In f (fields_pre_order l) /\ r_id f = i.
Proof. intros i l H. unfold r_field_ids in H. apply in_map_iff in H as (f & E & X). eauto. Qed.
Lemma ids_split : forall x t, r_field_ids (x :: t) = r_field_ids [x] ++ r_field_ids t.
Proof. intros. change (x :: t) with ([x] ++ t). apply ids_app. Qed.
Lemma ids_node : forall a c, r_field_ids [RF a c] = a_id a :: r_field_ids c.
Proof. intros. rewrite ids_cons, ids_nil, app_nil_r. reflexivity. Qed.
Lemma put_absent : forall f i n, ~ In i (r_field_ids [f]) -> put_in i n f = None.
Proof.
  induction f as [a c IH] using rfield_ind'. intros i n H. rewrite put_in_eq. rewrite ids_node in H.
  destruct (Z.eqb_spec (a_id a) i) as [E|E]; [exfalso; apply H; left; exact E|].
  replace (put_at i n c) with (@None (list rfield)); [reflexivity|]. symmetry.
  assert (Hc : ~ In i (r_field_ids c)) by (intros X; apply H; right; exact X). clear H E.
  induction IH as [|x t Hx Ht IHt]; cbn [put_at]; [reflexivity|]. rewrite ids_split, in_app_iff in Hc.
  rewrite Hx by tauto. rewrite IHt by tauto. reflexivity.
Qed.
Lemma put_at_absent : forall l i n, ~ In i (r_field_ids l) -> put_at i n l = None.
Proof.
  induction l as [|x t IH]; intros i n H; cbn [put_at]; [reflexivity|]. rewrite ids_split, in_app_iff in H.
  rewrite put_absent by tauto. rewrite IH by tauto. reflexivity.
Qed.
Lemma put_present : forall f i n, In i (r_field_ids [f]) -> put_in i n f <> None.
Proof.
  induction f as [a c IH] using rfield_ind'. intros i n H. rewrite put_in_eq. rewrite ids_node in H.
  destruct (Z.eqb_spec (a_id a) i) as [E|E]; [discriminate|]. destruct H as [H|H]; [contradiction|].
  enough (put_at i n c <> None) by (destruct (put_at i n c); [discriminate|contradiction]).
  induction IH as [|x t Hx Ht IHt]; cbn [put_at]; [destruct H|]. rewrite ids_split, in_app_iff in H.
  destruct (put_in i n x) eqn:Q; [discriminate|]. destruct H as [H|H]; [exfalso; apply (Hx i n H Q)|].
  specialize (IHt H). destruct (put_at i n t); [discriminate|contradiction].
Qed.
Lemma put_at_present : forall l i n, In i (r_field_ids l) -> put_at i n l <> None.
Proof.
  induction l as [|x t IH]; intros i n H; cbn [put_at]; [destruct H|]. rewrite ids_split, in_app_iff in H.
  destruct (put_in i n x) eqn:Q; [discriminate|]. destruct H as [H|H]; [exfalso; apply (put_present x i n H Q)|].
  specialize (IH i n H). destruct (put_at i n t); [discriminate|contradiction].
Qed.
Lemma edited_eq : forall nm nl sw a c, edited nm nl sw (RF a c) =
  match sw (a_id a) with
  | Some n => n
  | None => relabel (orelse (nm (a_id a)) (a_name a)) (orelse (nl (a_id a)) (a_null a)) (RF a (map (edited nm nl sw) c))
  end.
Proof. reflexivity. Qed.
Lemma relabel_id : forall n b f, r_id (relabel n b f) = r_id f.
Proof. intros n b [a c]. reflexivity. Qed.
Lemma edited_id : forall nm nl sw f, sw (r_id f) = None -> r_id (edited nm nl sw f) = r_id f.
Proof. intros nm nl sw [a c] H. rewrite edited_eq. unfold r_id in H. cbn in H. rewrite H. reflexivity. Qed.
(* the fields of an edited tree *)
Lemma edited_fields : forall nm nl sw l f, In f (fields_pre_order (map (edited nm nl sw) l)) ->
  (exists g, In g (fields_pre_order l) /\ f = edited nm nl sw g /\ sw (r_id g) = None) \/
  (exists g n, In g (fields_pre_order l) /\ sw (r_id g) = Some n /\ In f (pre_order n)).
Proof.
  intros nm nl sw. assert (One : forall x f, In f (pre_order (edited nm nl sw x)) ->
    (exists g, In g (pre_order x) /\ f = edited nm nl sw g /\ sw (r_id g) = None) \/
    (exists g n, In g (pre_order x) /\ sw (r_id g) = Some n /\ In f (pre_order n))).
  { induction x as [a c IH] using rfield_ind'. intros f H. rewrite edited_eq in H. destruct (sw (a_id a)) as [n|] eqn:S.
    - right. exists (RF a c), n. split; [left; reflexivity|]. split; [exact S|exact H].
    - unfold relabel in H. cbn [r_attrs r_children] in H. rewrite pre_order_eq in H. destruct H as [<-|H].
      + left. exists (RF a c). split; [left; reflexivity|]. split; [rewrite edited_eq, S; reflexivity|exact S].
      + assert (X : (exists g, In g (fields_pre_order c) /\ f = edited nm nl sw g /\ sw (r_id g) = None) \/
                    (exists g n, In g (fields_pre_order c) /\ sw (r_id g) = Some n /\ In f (pre_order n))).
        { clear S. unfold fields_pre_order in *. induction IH as [|x t Hx Ht IHt]; [destruct H|]. cbn [map flat_map] in H |- *. apply in_app_iff in H as [H|H].
          - destruct (Hx f H) as [(g & A & B)|(g & n & A & B)]; [left; exists g|right; exists g, n]; (split; [apply in_or_app; left; exact A|exact B]).
          - destruct (IHt H) as [(g & A & B)|(g & n & A & B)]; [left; exists g|right; exists g, n]; (split; [apply in_or_app; right; exact A|exact B]). }
        destruct X as [(g & A & B)|(g & n & A & B)]; [left; exists g|right; exists g, n]; (split; [right; exact A|exact B]). }
  unfold fields_pre_order. induction l as [|x t IH]; intros f H; [destruct H|]. cbn [map flat_map] in H |- *. apply in_app_iff in H as [H|H].
  - destruct (One x f H) as [(g & A & B)|(g & n & A & B)]; [left; exists g|right; exists g, n]; (split; [apply in_or_app; left; exact A|exact B]).
  - destruct (IH f H) as [(g & A & B)|(g & n & A & B)]; [left; exists g|right; exists g, n]; (split; [apply in_or_app; right; exact A|exact B]).
Qed.
Lemma edited_ids : forall nm nl sw l i, In i (r_field_ids (map (edited nm nl sw) l)) ->
  (In i (r_field_ids l) /\ sw i = None) \/ (exists j n, In j (r_field_ids l) /\ sw j = Some n /\ In i (r_field_ids [n])).
Proof.
  intros nm nl sw l i H. apply of_ids in H as (f & H & <-). apply edited_fields in H as [(g & A & -> & S)|(g & n & A & S & X)].
  - left. rewrite edited_id by exact S. split; [apply ids_of; exact A|exact S].
  - right. exists (r_id g), n. split; [apply ids_of; exact A|]. split; [exact S|]. apply ids_of. unfold fields_pre_order. cbn. rewrite app_nil_r. exact X.
Qed.
Lemma same_id : forall l f g, NoDup (r_field_ids l) -> In f (fields_pre_order l) -> In g (fields_pre_order l) -> r_id f = r_id g -> f = g.
Proof.
  intros l f g. unfold r_field_ids. induction (fields_pre_order l) as [|x t IH]; cbn [map]; [intros _ []|]. intros D [->|F] [->|G] E; auto.
  - inversion D as [|? ? H]; subst. exfalso. apply H. rewrite E. apply in_map. exact G.
  - inversion D as [|? ? H]; subst. exfalso. apply H. rewrite <- E. apply in_map. exact F.
  - inversion D; subst. apply IH; auto.
Qed.
Lemma edited_ext : forall nm nl sw nm' nl' sw' f, (forall i, In i (r_field_ids [f]) -> nm i = nm' i /\ nl i = nl' i /\ sw i = sw' i) ->
  edited nm nl sw f = edited nm' nl' sw' f.
Proof.
  intros nm nl sw nm' nl' sw'. induction f as [a c IH] using rfield_ind'. intros H. rewrite !edited_eq. rewrite ids_node in H.
  destruct (H (a_id a) (or_introl eq_refl)) as (-> & -> & ->). destruct (sw' (a_id a)); [reflexivity|]. f_equal. f_equal.
  assert (H' : forall i, In i (r_field_ids c) -> nm i = nm' i /\ nl i = nl' i /\ sw i = sw' i) by (intros i X; apply H; right; exact X). clear H.
  induction IH as [|x t Hx Ht IHt]; [reflexivity|]. cbn [map]. f_equal.
  - apply Hx. intros i X. apply H'. rewrite ids_split. apply in_or_app. left. exact X.
  - apply IHt. intros i X. apply H'. rewrite ids_split. apply in_or_app. right. exact X.
Qed.
Lemma edited_ext_list : forall nm nl sw nm' nl' sw' l, (forall i, In i (r_field_ids l) -> nm i = nm' i /\ nl i = nl' i /\ sw i = sw' i) ->
  map (edited nm nl sw) l = map (edited nm' nl' sw') l.
Proof.
  intros nm nl sw nm' nl' sw'. induction l as [|x t IH]; intros H; [reflexivity|]. cbn [map]. f_equal.
  - apply edited_ext. intros i X. apply H. rewrite ids_split. apply in_or_app. left. exact X.
  - apply IH. intros i X. apply H. rewrite ids_split. apply in_or_app. right. exact X.
Qed.
(* writing a field of an edited tree *)
Lemma put_edited : forall nm nl sw nm' nl' sw' i n l l', NoDup (r_field_ids l) ->
  (forall j, j <> i -> nm j = nm' j /\ nl j = nl' j /\ sw j = sw' j) -> (forall j f, sw j = Some f -> ~ In i (r_field_ids [f])) ->
  (forall g, In g (fields_pre_order l) -> r_id g = i -> edited nm' nl' sw' g = n) ->
  put_at i n (map (edited nm nl sw) l) = Some l' -> l' = map (edited nm' nl' sw') l.
Proof.
  intros nm nl sw nm' nl' sw' i n l l' D Ag Sw At.
  assert (L : forall l l', (Forall (fun x => forall x', NoDup (r_field_ids [x]) -> (forall g, In g (pre_order x) -> r_id g = i -> edited nm' nl' sw' g = n) ->
      put_in i n (edited nm nl sw x) = Some x' -> x' = edited nm' nl' sw' x) l) -> NoDup (r_field_ids l) ->
      (forall g, In g (fields_pre_order l) -> r_id g = i -> edited nm' nl' sw' g = n) ->
      put_at i n (map (edited nm nl sw) l) = Some l' -> l' = map (edited nm' nl' sw') l).
  { clear l l' D At. induction l as [|x t IH]; intros l' F D At P; cbn [map put_at] in P; [discriminate|].
    inversion F as [|? ? Fx Ft]; subst. rewrite ids_split in D. destruct (NoDup_app_l _ _ _ D) as (Dx & Dt & Dd).
    assert (Atx : forall g, In g (pre_order x) -> r_id g = i -> edited nm' nl' sw' g = n) by (intros g G; apply At; apply in_or_app; left; exact G).
    assert (Att : forall g, In g (fields_pre_order t) -> r_id g = i -> edited nm' nl' sw' g = n) by (intros g G; apply At; apply in_or_app; right; exact G).
    assert (Same : forall y, (~ In i (r_field_ids y)) -> map (edited nm nl sw) y = map (edited nm' nl' sw') y).
    { intros y N. apply edited_ext_list. intros j J. apply Ag. intros ->. contradiction. }
    assert (Ini : forall y, (forall m, put_at i m (map (edited nm nl sw) y) <> None) -> In i (r_field_ids y)).
    { intros y P'. destruct (in_dec Z.eq_dec i (r_field_ids y)) as [Y|Y]; [exact Y|]. exfalso. apply (P' n). apply put_at_absent. intros X.
      apply edited_ids in X as [[X _]|(j & f & _ & S & X)]; [contradiction|]. exact (Sw _ _ S X). }
    cbn [map]. destruct (put_in i n (edited nm nl sw x)) as [x'|] eqn:Q.
    - injection P as <-. rewrite (Fx x' Dx Atx eq_refl). f_equal. apply Same. apply Dd. apply (Ini [x]). intros m. cbn [map put_at].
      destruct (put_in i m (edited nm nl sw x)) eqn:Q'; [discriminate|]. exfalso.
      destruct (in_dec Z.eq_dec i (r_field_ids [edited nm nl sw x])) as [Y|Y]; [exact (put_present _ _ m Y Q')|]. rewrite put_absent in Q by exact Y. discriminate.
    - destruct (put_at i n (map (edited nm nl sw) t)) as [t'|] eqn:R; [|discriminate]. cbn [omap] in P. injection P as <-.
      rewrite (IH t' Ft Dt Att eq_refl). f_equal. 
      assert (X : In i (r_field_ids t)).
      { apply Ini. intros m E. destruct (in_dec Z.eq_dec i (r_field_ids (map (edited nm nl sw) t))) as [Y|Y]; [exact (put_at_present _ _ m Y E)|]. rewrite put_at_absent in R by exact Y. discriminate. }
      assert (N : ~ In i (r_field_ids [x])) by (intros Y; exact (Dd i Y X)). specialize (Same [x] N). cbn [map] in Same. congruence. }
  apply L; auto. clear l' D At. apply Forall_forall. intros x _. clear l. induction x as [a c IH] using rfield_ind'. intros x' D At P.
  rewrite ids_node in D. inversion D as [|? ? Da Dc]; subst. rewrite edited_eq in P. destruct (sw (a_id a)) as [s|] eqn:S.
  - rewrite put_absent in P by (exact (Sw _ _ S)). discriminate.
  - unfold relabel in P. cbn [r_attrs r_children] in P. rewrite put_in_eq in P. cbn [a_id] in P. destruct (Z.eqb_spec (a_id a) i) as [E|E].
    + injection P as <-. symmetry. apply At; [left; reflexivity|exact E].
    + destruct (put_at i n (map (edited nm nl sw) c)) as [c'|] eqn:Q; [|discriminate]. cbn [omap] in P. injection P as <-.
      assert (Atc : forall g, In g (fields_pre_order c) -> r_id g = i -> edited nm' nl' sw' g = n) by (intros g G; apply At; right; exact G).
      rewrite (L c c' IH Dc Atc Q). rewrite edited_eq. destruct (Ag (a_id a) E) as (<- & <- & <-). rewrite S. unfold relabel. reflexivity.
Qed.
Lemma field_at_in : forall p l f, field_at l p = Some f -> In f (fields_pre_order l).
Proof.
  induction p as [|n p IH]; intros l f H; cbn [field_at] in H; [discriminate|]. destruct (lookup n l) as [x|] eqn:L; [|discriminate].
  unfold lookup in L. apply find_some in L as [L _]. unfold fields_pre_order. apply in_flat_map. exists x. split; [exact L|].
  destruct p as [|m p].
  - injection H as <-. destruct x as [a c]. left. reflexivity.
  - apply IH in H. destruct x as [a c]. right. exact H.
Qed.
Lemma wish_snoc : forall {A} (get : alteration -> option A) old als al i,
  wish get old (als ++ [al]) i = if aims old i al then match get al with Some x => Some x | None => wish get old als i end else wish get old als i.
Proof. intros. unfold wish. rewrite fold_left_app. reflexivity. Qed.
(* some alteration changes the type of field i *)
Definition typed (old : list rfield) (als : list alteration) (i : Z) : Prop := exists al t, In al als /\ aims old i al = true /\ al_type al = Some t.

Definition astep (old : list rfield) (next0 : Z) (als : list alteration) (st : astate) : Prop :=
  let '(l, casts, next) := st in
  exists sw, l = map (edited (wish al_rename old als) (wish al_null old als) sw) old /\ next0 <= next /\
  (forall i f, sw i = Some f -> exists g t, In g (fields_pre_order old) /\ r_id g = i /\ wish al_type old als i = Some t /\
     replaces next0 (wish al_rename old als) (wish al_null old als) g t f /\ (forall j, In j (r_field_ids [f]) -> j < next) /\ In (g, f) casts) /\
  (forall i j f g k, sw i = Some f -> sw j = Some g -> In k (r_field_ids [f]) -> In k (r_field_ids [g]) -> i = j) /\
  (forall i, typed old als i <-> sw i <> None) /\
  (forall g f, In (g, f) casts -> In g (fields_pre_order old) /\ sw (r_id g) = Some f).
Lemma typed_snoc : forall old als al i, typed old (als ++ [al]) i <-> typed old als i \/ (aims old i al = true /\ al_type al <> None).
Proof.
  intros old als al i. unfold typed. split.
  - intros (x & t & H & A & T). apply in_app_iff in H as [H|[->|[]]]; [left; eauto|]. right. split; [exact A|congruence].
  - intros [(x & t & H & A & T)|[A T]].
    + exists x, t. split; [apply in_or_app; left; exact H|auto].
    + destruct (al_type al) as [t|] eqn:E; [|contradiction]. exists al, t. split; [apply in_or_app; right; left; reflexivity|auto].
Qed.
Lemma pre_list : forall f, fields_pre_order [f] = pre_order f.
Proof. intros f. unfold fields_pre_order. cbn. apply app_nil_r. Qed.
Lemma edited_at_relabel : forall nm nl sw g, sw (r_id g) = None ->
  edited nm nl sw g = relabel (orelse (nm (r_id g)) (r_name g)) (orelse (nl (r_id g)) (a_null (r_attrs g))) (RF (r_attrs g) (map (edited nm nl sw) (r_children g))).
Proof. intros nm nl sw [a c] H. rewrite edited_eq. unfold r_id in H |- *. cbn in H |- *. rewrite H. reflexivity. Qed.
Lemma neg_given : forall l, (forall i, In i l -> i < 0) -> given l = [].
Proof.
  induction l as [|x t IH]; intros H; [reflexivity|]. unfold given. cbn [filter]. destruct (Z.leb_spec 0 x).
  - specialize (H x (or_introl eq_refl)). lia.
  - apply IH. intros i X. apply H. right. exact X.
Qed.
Lemma recast_spec : forall n b p seed t f next, 0 <= seed -> unset t -> recast n b p seed t = (f, next) ->
  shape f = shape (RF {| a_name := n; a_id := 0; a_parent := 0; a_type := a_type (r_attrs t); a_meta := []; a_enc := a_enc (r_attrs t); a_null := b; a_dict := None; a_storage := SDefault |} (r_children t)) /\
  a_parent (r_attrs f) = p /\ (forall i, In i (r_field_ids [f]) -> seed <= i < next) /\ NoDup (r_field_ids [f]) /\ seed <= next.
Proof.
  intros n b p seed t f next S U R. unfold recast in R.
  set (t0 := RF _ (r_children t)) in R. assert (Neg : forall i, In i (r_field_ids [t0]) -> i < 0).
  { intros i. unfold t0. rewrite ids_node. cbn [a_id]. intros [<-|H]; [lia|]. apply U. destruct t as [a c]. rewrite ids_node. right. exact H. }
  pose proof (set_id_assigned _ _ _ _ _ S R) as (L & P & Sh & K & N). split; [|split; [|split; [|split]]].
  - cbn [map] in Sh. injection Sh as Sh. rewrite Sh. reflexivity.
  - inversion P as [|? ? Pf _]; subst. inversion Pf; subst. reflexivity.
  - intros i H. destruct (kept_In _ _ _ _ _ K H) as [X|X]; [|exact X]. apply given_In in X as [X Y]. apply Neg in X. lia.
  - apply N; rewrite (neg_given _ Neg); [constructor|intros i []].
  - exact L.
Qed.
Lemma same_wish : forall {A} (get : alteration -> option A) old als al i, aims old i al = false -> wish get old (als ++ [al]) i = wish get old als i.
Proof. intros A get old als al i H. rewrite wish_snoc, H. reflexivity. Qed.
Lemma alter_step : forall castable old next0 als al st st', NoDup (r_field_ids old) -> 0 <= next0 -> (forall i, In i (r_field_ids old) -> i < next0) ->
  (forall t, al_type al = Some t -> unset t) ->
  astep old next0 als st -> alter_one castable old st al = Ok st' -> astep old next0 (als ++ [al]) st' /\ allowed castable old al.
Proof.
  intros castable old next0 als al [[l casts] next] st' D N0 Lt U (sw & El & Ln & Sw & Dj & Ty & Ca) H. unfold alter_one in H.
  destruct (field_at old (al_path al)) as [src|] eqn:F; [|discriminate].
  destruct (storage_eqb (a_storage (r_attrs src)) SDefault) eqn:St; cbn [negb] in H; [|discriminate].
  destruct (a_null (r_attrs src) && match al_null al with Some b => negb b | None => false end) eqn:Nl; [discriminate|].
  destruct (get_at (r_id src) l) as [dest|] eqn:G; [|discriminate].
  pose proof (field_at_in _ _ _ F) as Is. pose proof (ids_of _ _ Is) as Ii.
  assert (Hs : a_storage (r_attrs src) = SDefault) by (destruct (a_storage (r_attrs src)); [reflexivity|discriminate]).
  assert (Hn : al_null al = Some false -> a_null (r_attrs src) = false).
  { intros E. rewrite E in Nl. cbn in Nl. destruct (a_null (r_attrs src)); [discriminate|reflexivity]. }
  assert (Aim : aims old (r_id src) al = true) by (unfold aims; rewrite F; apply Z.eqb_refl).
  assert (Aim' : forall j, j <> r_id src -> aims old j al = false) by (intros j J; unfold aims; rewrite F; apply Z.eqb_neq; congruence).
  assert (SwN : forall j f, sw j = Some f -> ~ In (r_id src) (r_field_ids [f])).
  { intros j f S X. destruct (Sw j f S) as (g & t & _ & _ & _ & (_ & _ & R & _) & _). specialize (R _ X). specialize (Lt _ Ii). lia. }
  unfold get_at in G. apply find_some in G as [Gi Gj]. apply Z.eqb_eq in Gj. rewrite El in Gi.
  apply edited_fields in Gi as [(g & Gg & Ed & Sn)|(g & n & Gg & Sn & X)].
  2:{ exfalso. apply (SwN _ _ Sn). rewrite <- Gj. apply ids_of. rewrite pre_list. exact X. }
  assert (g = src). { apply (same_id old); auto. rewrite <- Gj, Ed. symmetry. apply edited_id. exact Sn. } subst g.
  assert (Nd : r_name dest = orelse (wish al_rename old als (r_id src)) (r_name src)) by (rewrite Ed, edited_at_relabel by exact Sn; reflexivity).
  assert (Bd : a_null (r_attrs dest) = orelse (wish al_null old als (r_id src)) (a_null (r_attrs src))) by (rewrite Ed, edited_at_relabel by exact Sn; reflexivity).
  assert (Wn : orelse (al_rename al) (r_name dest) = orelse (wish al_rename old (als ++ [al]) (r_id src)) (r_name src)).
  { rewrite wish_snoc, Aim, Nd. destruct (al_rename al); reflexivity. }
  assert (Wb : orelse (al_null al) (a_null (r_attrs dest)) = orelse (wish al_null old (als ++ [al]) (r_id src)) (a_null (r_attrs src))).
  { rewrite wish_snoc, Aim, Bd. destruct (al_null al); reflexivity. }
  rewrite Wn, Wb in H. clear Wn Wb.
  assert (Move : forall i g t f, i <> r_id src -> r_id g = i -> replaces next0 (wish al_rename old als) (wish al_null old als) g t f ->
    replaces next0 (wish al_rename old (als ++ [al])) (wish al_null old (als ++ [al])) g t f).
  { intros i g t f Ne <- R. unfold replaces in *. rewrite !same_wish by (apply Aim'; exact Ne). exact R. }
  destruct (al_type al) as [t|] eqn:T.
  - destruct (castable src t) eqn:C; [|discriminate].
    destruct (recast _ _ (a_parent (r_attrs src)) next t) as [f next'] eqn:R. destruct (put_at (r_id src) f l) as [l'|] eqn:P; [|discriminate]. injection H as <-.
    apply recast_spec in R as (R1 & R2 & R3 & R4 & R5); [|lia|exact (U t eq_refl)].
    split; [|exists src; repeat split; auto; intros t1 E1; rewrite T in E1; injection E1 as <-; exact C].
    set (sw' := fun j => if j =? r_id src then Some f else sw j). exists sw'. split; [|split; [|split; [|split; [|split]]]].
    + rewrite El in P. eapply put_edited; [exact D| |exact SwN| |exact P].
      * intros j J. rewrite !same_wish by (apply Aim'; exact J). unfold sw'. destruct (Z.eqb_spec j (r_id src)); [contradiction|auto].
      * intros g Gg' Eg. rewrite (same_id old g src D Gg' Is Eg). destruct src as [a c]. rewrite edited_eq. unfold sw'. cbn. rewrite Z.eqb_refl. reflexivity.
    + lia.
    + intros i x. unfold sw'. destruct (Z.eqb_spec i (r_id src)) as [->|Ne].
      * intros [= <-]. exists src, t. split; [exact Is|]. split; [reflexivity|]. split; [rewrite wish_snoc, Aim, T; reflexivity|]. split.
        -- split; [exact R1|]. split; [exact R2|]. split; [intros i X; specialize (R3 i X); lia|exact R4].
        -- split; [intros j X; specialize (R3 j X); lia|apply in_or_app; right; left; reflexivity].
      * intros S. destruct (Sw i x S) as (g & t' & A1 & A2 & A3 & A4 & A5 & A6). exists g, t'. split; [exact A1|]. split; [exact A2|].
        split; [rewrite same_wish by (apply Aim'; exact Ne); exact A3|]. split; [exact (Move i g t' x Ne A2 A4)|]. split; [intros j X; specialize (A5 j X); lia|apply in_or_app; left; exact A6].
    + intros i j x y k. unfold sw'. destruct (Z.eqb_spec i (r_id src)) as [->|Ni], (Z.eqb_spec j (r_id src)) as [->|Nj]; auto.
      * intros [= <-] S X Y. destruct (Sw j y S) as (_ & _ & _ & _ & _ & _ & A & _). specialize (A k Y). specialize (R3 k X). lia.
      * intros S [= <-] X Y. destruct (Sw i x S) as (_ & _ & _ & _ & _ & _ & A & _). specialize (A k X). specialize (R3 k Y). lia.
      * intros S1 S2 X Y. exact (Dj i j x y k S1 S2 X Y).
    + intros i. rewrite typed_snoc, Ty. unfold sw'. destruct (Z.eqb_spec i (r_id src)) as [->|Ne].
      * split; [discriminate|]. intros _. right. split; [exact Aim|congruence].
      * rewrite (Aim' i Ne). intuition discriminate.
    + intros g x X. apply in_app_iff in X as [X|[[= <- <-]|[]]].
      * destruct (Ca g x X) as [A1 A2]. split; [exact A1|]. unfold sw'. destruct (Z.eqb_spec (r_id g) (r_id src)) as [E|_]; [|exact A2]. rewrite E in A2. congruence.
      * split; [exact Is|]. unfold sw'. rewrite Z.eqb_refl. reflexivity.
  - destruct (put_at (r_id src) _ l) as [l'|] eqn:P; [|discriminate]. injection H as <-.
    split; [|exists src; repeat split; auto; intros t1 E1; congruence].
    exists sw. split; [|split; [exact Ln|split; [|split; [exact Dj|split; [|exact Ca]]]]].
    + rewrite El in P. eapply put_edited; [exact D| |exact SwN| |exact P].
      * intros j J. rewrite !same_wish by (apply Aim'; exact J). auto.
      * intros g Gg' Eg. rewrite (same_id old g src D Gg' Is Eg). rewrite edited_at_relabel by exact Sn. rewrite Ed, edited_at_relabel by exact Sn.
        unfold relabel. cbn [r_attrs r_children]. f_equal. apply edited_ext_list. intros j J. 
        assert (Nj : j <> r_id src).
        { intros ->. destruct src as [a c]. clear -D Is J. unfold r_id in J. cbn in J. revert D Is J. unfold fields_pre_order. induction old as [|x r IH]; intros D Is J; [destruct Is|].
          rewrite ids_split in D. destruct (NoDup_app_l _ _ _ D) as (Dx & Dr & Dd). cbn [flat_map] in Is. apply in_app_iff in Is as [Is|Is]; [|apply IH; auto].
          clear -Dx Is J. revert Dx Is. induction x as [b d IHx] using rfield_ind'. intros Dx Is. rewrite ids_node in Dx. inversion Dx as [|? ? Nb Dd]; subst.
          rewrite pre_order_eq in Is. destruct Is as [[= -> ->]|Is]; [contradiction|]. clear Nb Dx. unfold fields_pre_order in Is. induction IHx as [|y t Hy Ht IHt]; [destruct Is|].
          rewrite ids_split in Dd. destruct (NoDup_app_l _ _ _ Dd) as (D1 & D2 & _). cbn [flat_map] in Is. apply in_app_iff in Is as [Is|Is]; [apply Hy; auto|apply IHt; auto]. }
        rewrite !same_wish by (apply Aim'; exact Nj). auto.
    + intros i x S. destruct (Sw i x S) as (g & t' & A1 & A2 & A3 & A4 & A5 & A6). assert (Ne : i <> r_id src) by congruence.
      exists g, t'. split; [exact A1|]. split; [exact A2|]. split; [rewrite same_wish by (apply Aim'; exact Ne); exact A3|]. split; [exact (Move i g t' x Ne A2 A4)|auto].
    + intros i. rewrite typed_snoc, Ty. rewrite T. intuition congruence.
Qed.
Lemma under : forall g l i, In g (fields_pre_order l) -> In i (r_field_ids [g]) -> In i (r_field_ids l).
Proof.
  intros g l i. unfold fields_pre_order. assert (One : forall x g, In g (pre_order x) -> In i (r_field_ids [g]) -> In i (r_field_ids [x])).
  { induction x as [a c IH] using rfield_ind'. intros g0 [<-|H] J; [exact J|]. rewrite ids_node. right.
    induction IH as [|x t Hx Ht IHt]; [destruct H|]. cbn [flat_map] in H. rewrite ids_split. apply in_or_app. apply in_app_iff in H as [H|H]; [left; exact (Hx _ H J)|right; exact (IHt H)]. }
  induction l as [|x t IH]; intros H J; [destruct H|]. cbn [flat_map] in H. rewrite ids_split. apply in_or_app.
  apply in_app_iff in H as [H|H]; [left; exact (One x g H J)|right; exact (IH H J)].
Qed.
Lemma visible_iff : forall nm nl sw i l, NoDup (r_field_ids l) -> (forall j f, sw j = Some f -> ~ In i (r_field_ids [f])) ->
  (In i (r_field_ids (map (edited nm nl sw) l)) <->
   In i (r_field_ids l) /\ forall g, In g (fields_pre_order l) -> In i (r_field_ids [g]) -> sw (r_id g) = None).
Proof.
  intros nm nl sw i l D Sw. assert (One : forall x, NoDup (r_field_ids [x]) -> (In i (r_field_ids [edited nm nl sw x]) <->
    In i (r_field_ids [x]) /\ forall g, In g (pre_order x) -> In i (r_field_ids [g]) -> sw (r_id g) = None)).
  2:{ clear -One D. induction l as [|x t IH]; [cbn; tauto|]. rewrite ids_split in D. destruct (NoDup_app_l _ _ _ D) as (Dx & Dt & Dd).
      cbn [map]. rewrite !(ids_split _ (map _ _)), (ids_split x t), !in_app_iff, (One x Dx), (IH Dt). unfold fields_pre_order. cbn [flat_map]. split.
      - intros [[A B]|[A B]]; (split; [tauto|]); intros g G J; apply in_app_iff in G as [G|G]; auto; exfalso.
        + apply (Dd i A). apply (under g); auto.
        + apply (Dd i); [|exact A]. apply (under g); [rewrite pre_list; exact G|exact J].
      - intros [[A|A] B]; [left|right]; (split; [exact A|]); intros g G; apply B, in_or_app; tauto. }
  clear l D. induction x as [a c IH] using rfield_ind'. intros D. rewrite edited_eq. destruct (sw (a_id a)) as [n|] eqn:S.
  - split; [intros H; exfalso; exact (Sw _ _ S H)|]. intros [A B]. specialize (B (RF a c) (or_introl eq_refl) A). unfold r_id in B. cbn in B. congruence.
  - unfold relabel. cbn [r_attrs r_children]. rewrite !ids_node in *. cbn [a_id]. inversion D as [|? ? Na Dc]; subst.
    assert (L : In i (r_field_ids (map (edited nm nl sw) c)) <-> In i (r_field_ids c) /\ forall g, In g (fields_pre_order c) -> In i (r_field_ids [g]) -> sw (r_id g) = None).
    { clear D Na S. induction IH as [|x t Hx Ht IHt]; [cbn; tauto|]. rewrite ids_split in Dc. destruct (NoDup_app_l _ _ _ Dc) as (Dx & Dt & Dd).
      cbn [map]. rewrite !(ids_split _ (map _ _)), (ids_split x t), !in_app_iff, (Hx Dx), (IHt Dt). unfold fields_pre_order. cbn [flat_map]. split.
      - intros [[A B]|[A B]]; (split; [tauto|]); intros g G J; apply in_app_iff in G as [G|G]; auto; exfalso.
        + apply (Dd i A). apply (under g); auto.
        + apply (Dd i); [|exact A]. apply (under g); [rewrite pre_list; exact G|exact J].
      - intros [[A|A] B]; [left|right]; (split; [exact A|]); intros g G; apply B, in_or_app; tauto. }
    cbn [In]. rewrite L. split.
    + intros [E|[A B]].
      * split; [left; exact E|]. intros g [<-|G] J; [exact S|]. exfalso. apply Na. rewrite E. apply (under g); auto.
      * split; [right; exact A|]. intros g [<-|G] J; [exact S|]. apply B; auto.
    + intros [[E|A] B]; [left; exact E|right]. split; [exact A|]. intros g G J. apply B; auto. right. exact G.
Qed.
Lemma get_at_iff : forall i l, (exists f, get_at i l = Some f) <-> In i (r_field_ids l).
Proof.
  intros i l. unfold get_at. split.
  - intros [f H]. apply find_some in H as [H E]. apply Z.eqb_eq in E. subst i. apply ids_of. exact H.
  - intros H. apply of_ids in H as (f & H & <-). destruct (find (fun f0 => r_id f0 =? r_id f) (fields_pre_order l)) eqn:Q; [eauto|].
    exfalso. apply find_none with (x := f) in Q; [|exact H]. apply Z.eqb_neq in Q. contradiction.
Qed.
(* at or below a field whose type an earlier alteration changed *)
Definition hidden (old : list rfield) (als : list alteration) (i : Z) : Prop :=
  exists g, In g (fields_pre_order old) /\ In i (r_field_ids [g]) /\ typed old als (r_id g).
Lemma alter_step_total : forall castable old next0 als al st, NoDup (r_field_ids old) -> 0 <= next0 -> (forall i, In i (r_field_ids old) -> i < next0) ->
  astep old next0 als st -> allowed castable old al ->
  (forall f, field_at old (al_path al) = Some f -> ~ hidden old als (r_id f)) ->
  exists st', alter_one castable old st al = Ok st'.
Proof.
  intros castable old next0 als al [[l casts] next] D N0 Lt (sw & El & Ln & Sw & Dj & Ty & Ca) (f & F & S & N & C) H. unfold alter_one. rewrite F, S. cbn [storage_eqb negb].
  replace (a_null (r_attrs f) && match al_null al with Some b => negb b | None => false end) with false.
  2:{ destruct (al_null al) as [[|]|] eqn:E; rewrite ?andb_false_r; auto. rewrite (N eq_refl). reflexivity. }
  pose proof (ids_of _ _ (field_at_in _ _ _ F)) as I.
  assert (V : In (r_id f) (r_field_ids l)).
  { rewrite El. apply visible_iff; [exact D| |].
    - intros j x X J. destruct (Sw j x X) as (g & t & _ & _ & _ & (_ & _ & R & _) & _). specialize (R _ J). specialize (Lt _ I). lia.
    - split; [exact I|]. intros g G J. destruct (sw (r_id g)) eqn:Q; [|reflexivity]. exfalso. apply (H f F). exists g. split; [exact G|]. split; [exact J|]. apply Ty. congruence. }
  destruct (proj2 (get_at_iff _ _) V) as [d ->]. destruct (al_type al) as [t|].
  - rewrite (C t eq_refl). destruct (recast _ _ _ next t) as [x n']. destruct (put_at (r_id f) x l) eqn:P; [eauto|]. exfalso. exact (put_at_present _ _ _ V P).
  - destruct (put_at (r_id f) _ l) eqn:P; [eauto|]. exfalso. exact (put_at_present _ _ _ V P).
Qed.
Lemma alter_step_hidden : forall castable old next0 als al st st', NoDup (r_field_ids old) -> 0 <= next0 -> (forall i, In i (r_field_ids old) -> i < next0) ->
  astep old next0 als st -> alter_one castable old st al = Ok st' -> forall f, field_at old (al_path al) = Some f -> ~ hidden old als (r_id f).
Proof.
  intros castable old next0 als al [[l casts] next] st' D N0 Lt (sw & El & Ln & Sw & Dj & Ty & Ca) X f F (g & G & J & T). unfold alter_one in X. rewrite F in X.
  pose proof (ids_of _ _ (field_at_in _ _ _ F)) as I.
  destruct (negb _); [discriminate|]. destruct (_ && _); [discriminate|]. destruct (get_at (r_id f) l) as [d|] eqn:Q; [|discriminate].
  assert (V : In (r_id f) (r_field_ids l)) by (apply get_at_iff; eauto). rewrite El in V. apply visible_iff in V.
  - apply Ty in T. apply T. apply (proj2 V); auto.
  - exact D.
  - intros j x S Y. destruct (Sw j x S) as (g' & t & _ & _ & _ & (_ & _ & R & _) & _). specialize (R _ Y). specialize (Lt _ I). lia.
Qed.
Lemma alter_step_fails : forall castable old st al, alter_one castable old st al = Err -> ~ allowed castable old al.
Proof.
  intros castable old [[l casts] next] al H (f & F & S & N & C). unfold alter_one in H. rewrite F, S in H. cbn [storage_eqb negb] in H.
  replace (a_null (r_attrs f) && match al_null al with Some b => negb b | None => false end) with false in H.
  2:{ destruct (al_null al) as [[|]|] eqn:E; rewrite ?andb_false_r; auto. rewrite (N eq_refl). reflexivity. }
  destruct (get_at (r_id f) l); [|discriminate]. destruct (al_type al) as [t|].
  - rewrite (C t eq_refl) in H. destruct (recast _ _ _ next t). destruct (put_at (r_id f) r0 l); discriminate.
  - destruct (put_at (r_id f) _ l); discriminate.
Qed.
Definition unhindered (old : list rfield) (als : list alteration) : Prop :=
  forall pre al post f, als = pre ++ al :: post -> field_at old (al_path al) = Some f -> ~ hidden old pre (r_id f).
Lemma astep_init : forall old next0, astep old next0 [] (old, [], next0).
Proof.
  intros old next0. exists (fun _ => None). split; [|split; [lia|split; [discriminate|split; [discriminate|split]]]].
  - transitivity (map (fun x : rfield => x) old); [symmetry; apply map_id|]. apply map_ext. intros f. symmetry. induction f as [a c IH] using rfield_ind'. rewrite edited_eq. unfold wish, relabel. cbn. f_equal.
    + destruct a; reflexivity.
    + induction IH as [|x t Hx Ht IHt]; [reflexivity|]. cbn [map]. f_equal; [exact Hx|exact IHt].
  - intros i. split; [intros (al & t & [] & _)|contradiction].
  - intros g f [].
Qed.
Lemma loop_sound : forall castable old next0 als done st st', NoDup (r_field_ids old) -> 0 <= next0 -> (forall i, In i (r_field_ids old) -> i < next0) ->
  (forall al t, In al als -> al_type al = Some t -> unset t) ->
  astep old next0 done st -> alter_loop castable old st als = Ok st' ->
  astep old next0 (done ++ als) st' /\ Forall (allowed castable old) als /\
  (forall pre al post f, als = pre ++ al :: post -> field_at old (al_path al) = Some f -> ~ hidden old (done ++ pre) (r_id f)).
Proof.
  intros castable old next0. induction als as [|al t IH]; intros done st st' D N0 Lt U A H; cbn [alter_loop] in H.
  - injection H as <-. rewrite app_nil_r. split; [exact A|]. split; [constructor|]. intros pre al post f E. destruct pre; discriminate.
  - destruct (alter_one castable old st al) as [s1| |] eqn:Q; try discriminate. cbn [obnd] in H.
    destruct (alter_step castable old next0 done al st s1 D N0 Lt (fun t0 => U al t0 (or_introl eq_refl)) A Q) as [A1 Al].
    pose proof (alter_step_hidden castable old next0 done al st s1 D N0 Lt A Q) as Hd.
    destruct (IH (done ++ [al]) s1 st' D N0 Lt (fun x t0 I => U x t0 (or_intror I)) A1 H) as (B1 & B2 & B3). rewrite <- app_assoc in B1. split; [exact B1|].
    split; [constructor; auto|]. intros pre x post f E F. destruct pre as [|y pre]; cbn in E; injection E as <- E.
    + rewrite app_nil_r. apply Hd. exact F.
    + specialize (B3 pre x post f E F). rewrite <- app_assoc in B3. exact B3.
Qed.
Lemma loop_total : forall castable old next0 als done st, NoDup (r_field_ids old) -> 0 <= next0 -> (forall i, In i (r_field_ids old) -> i < next0) ->
  (forall al t, In al als -> al_type al = Some t -> unset t) -> astep old next0 done st -> Forall (allowed castable old) als ->
  (forall pre al post f, als = pre ++ al :: post -> field_at old (al_path al) = Some f -> ~ hidden old (done ++ pre) (r_id f)) ->
  exists st', alter_loop castable old st als = Ok st'.
Proof.
  intros castable old next0. induction als as [|al t IH]; intros done st D N0 Lt U A Al H; cbn [alter_loop]; [eauto|].
  inversion Al as [|? ? Al1 Al2]; subst. destruct (alter_step_total castable old next0 done al st D N0 Lt A Al1) as [s1 Q].
  { intros f F. specialize (H [] al t f eq_refl F). rewrite app_nil_r in H. exact H. }
  rewrite Q. cbn [obnd]. destruct (alter_step castable old next0 done al st s1 D N0 Lt (fun t0 => U al t0 (or_introl eq_refl)) A Q) as [A1 _].
  apply (IH (done ++ [al])); auto.
  - intros x t0 I. apply U. right. exact I.
  - intros pre x post f E F. rewrite <- app_assoc. apply (H (al :: pre) x post f); [rewrite E; reflexivity|exact F].
Qed.
Lemma loop_err : forall castable old als st, alter_loop castable old st als = Err -> ~ Forall (allowed castable old) als.
Proof.
  intros castable old. induction als as [|al t IH]; intros st H; cbn [alter_loop] in H; [discriminate|]. intros F. inversion F; subst.
  destruct (alter_one castable old st al) as [s1| |] eqn:Q; try discriminate; cbn [obnd] in H.
  - exact (IH s1 H H3).
  - exact (alter_step_fails _ _ _ _ Q H2).
Qed.
Lemma nodup_str_iff : forall l, nodup_str l = true <-> NoDup l.
Proof.
  induction l as [|x t IH]; cbn; [split; [constructor|reflexivity]|]. rewrite andb_true_iff, negb_true_iff, IH. split.
  - intros [A B]. constructor; [|exact B]. intros X. apply Bool.not_true_iff_false in A. apply A. apply existsb_exists. exists x. split; [exact X|apply String.eqb_refl].
  - intros H. inversion H; subst. split; [|assumption]. apply Bool.not_true_iff_false. intros E. apply existsb_exists in E as (y & Y & E). apply String.eqb_eq in E. subst y. contradiction.
Qed.
Lemma nodupZ_iff : forall l, nodupZ l = true <-> NoDup l.
Proof.
  induction l as [|x t IH]; cbn [nodupZ]; [split; [constructor|reflexivity]|]. rewrite andb_true_iff, negb_true_iff, IH. split.
  - intros [A B]. constructor; [|exact B]. intros X. apply Bool.not_true_iff_false in A. apply A. apply existsb_exists. exists x. split; [exact X|apply Z.eqb_refl].
  - intros H. inversion H; subst. split; [|assumption]. apply Bool.not_true_iff_false. intros E. apply existsb_exists in E as (y & Y & E). apply Z.eqb_eq in E. subst y. contradiction.
Qed.
Lemma validate_iff : forall l, validate l = true <-> valid l.
Proof.
  intros l. unfold validate, validate_ids, valid. rewrite !andb_true_iff, nodup_str_iff, nodupZ_iff, !forallb_forall. split.
  - intros [[A B] [C E]]. split; [exact B|]. split; [intros f F; apply negb_true_iff; auto|]. split; [exact E|]. intros i I. apply Z.leb_le. auto.
  - intros (A & B & C & E). split; [split; [|exact A]|split; [|exact C]]; intros x X; [apply negb_true_iff; auto|apply Z.leb_le; auto].
Qed.

(* ---- the theorems ---- *)
(* what an accepted call leaves *)
Theorem alter_sound : forall castable next0 old als new casts, NoDup (r_field_ids old) -> 0 <= next0 -> (forall i, In i (r_field_ids old) -> i < next0) ->
  (forall al t, In al als -> al_type al = Some t -> unset t) -> alter_schema castable next0 old als = Ok (new, casts) ->
  valid new /\ exists sw, new = map (edited (wish al_rename old als) (wish al_null old als) sw) old /\
  (forall i, sw i <> None <-> typed old als i) /\
  (forall i f, sw i = Some f -> exists g t, In g (fields_pre_order old) /\ r_id g = i /\ wish al_type old als i = Some t /\
     replaces next0 (wish al_rename old als) (wish al_null old als) g t f) /\
  (forall i j f g k, sw i = Some f -> sw j = Some g -> In k (r_field_ids [f]) -> In k (r_field_ids [g]) -> i = j) /\
  (forall g f, In (g, f) casts <-> In g (fields_pre_order old) /\ sw (r_id g) = Some f).
Proof.
  intros castable next0 old als new casts D N0 Lt U H. unfold alter_schema in H. destruct (alter_loop castable old (old, [], next0) als) as [[[l c] n]| |] eqn:Q; try discriminate.
  cbn [obnd] in H. destruct (validate l) eqn:V; [|discriminate]. injection H as <- <-. split; [apply validate_iff; exact V|].
  apply (loop_sound _ _ next0 _ []) in Q; auto; [|apply astep_init]. destruct Q as ((sw & El & _ & Sw & Dj & Ty & Ca) & _). cbn [app] in *. exists sw. split; [exact El|].
  split; [intros i; symmetry; apply Ty|]. split; [|split; [exact Dj|]].
  - intros i f S. destruct (Sw i f S) as (g & t & A1 & A2 & A3 & A4 & _). eauto 8.
  - intros g f. split; [apply Ca|]. intros [G S]. destruct (Sw _ _ S) as (g' & t & A1 & A2 & _ & _ & _ & A6). rewrite (same_id old g g'); auto.
Qed.
(* when a call is accepted, rejected, panics *)
Theorem alter_exact : forall castable next0 old als, NoDup (r_field_ids old) -> 0 <= next0 -> (forall i, In i (r_field_ids old) -> i < next0) ->
  (forall al t, In al als -> al_type al = Some t -> unset t) ->
  (alter_schema castable next0 old als = Panic -> ~ unhindered old als) /\
  (unhindered old als -> Forall (allowed castable old) als -> exists st, alter_loop castable old (old, [], next0) als = Ok st /\
     alter_schema castable next0 old als = (let '(l, c, _) := st in if validate l then Ok (l, c) else Err)) /\
  (~ Forall (allowed castable old) als -> forall r, alter_schema castable next0 old als <> Ok r) /\
  (~ unhindered old als -> forall r, alter_schema castable next0 old als <> Ok r).
Proof.
  intros castable next0 old als D N0 Lt U.
  assert (T : unhindered old als -> Forall (allowed castable old) als -> exists st, alter_loop castable old (old, [], next0) als = Ok st).
  { intros H A. apply (loop_total _ _ next0 _ []); auto. apply astep_init. }
  assert (O : forall r, alter_schema castable next0 old als = Ok r -> Forall (allowed castable old) als /\ unhindered old als).
  { intros r H. unfold alter_schema in H. destruct (alter_loop castable old (old, [], next0) als) as [st| |] eqn:Q; try discriminate.
    apply (loop_sound _ _ next0 _ []) in Q; auto; [|apply astep_init]. destruct Q as (_ & A & B). split; [exact A|]. intros pre al post f E F. exact (B pre al post f E F). }
  split; [|split; [|split]].
  - intros H Un. unfold alter_schema in H. destruct (alter_loop castable old (old, [], next0) als) as [[[l c] n]| |] eqn:Q; cbn [obnd] in H.
    + destruct (validate l); discriminate.
    + discriminate.
    + clear H T O. enough (G : forall als' done st, astep old next0 done st -> (forall al t, In al als' -> al_type al = Some t -> unset t) ->
        (forall pre al post f, als' = pre ++ al :: post -> field_at old (al_path al) = Some f -> ~ hidden old (done ++ pre) (r_id f)) -> alter_loop castable old st als' <> Panic)
        by (apply (G als [] (old, [], next0)); auto; apply astep_init).
      clear als U Un Q. induction als' as [|al t IH]; intros done st A U Un; cbn [alter_loop]; [discriminate|].
      destruct (alter_one castable old st al) as [s1| |] eqn:Q; cbn [obnd].
      * apply (IH (done ++ [al])).
        -- exact (proj1 (alter_step castable old next0 done al st s1 D N0 Lt (fun t0 => U al t0 (or_introl eq_refl)) A Q)).
        -- intros x t0 I. apply U. right. exact I.
        -- intros pre x post f E F. rewrite <- app_assoc. apply (Un (al :: pre) x post f); [rewrite E; reflexivity|exact F].
      * discriminate.
      * exfalso. unfold alter_one in Q. destruct st as [[l c] n]. destruct (field_at old (al_path al)) as [f|] eqn:F; [|discriminate].
        destruct (storage_eqb (a_storage (r_attrs f)) SDefault) eqn:S; cbn [negb] in Q; [|discriminate]. destruct (_ && _) eqn:Nl; [discriminate|].
        destruct (alter_step_total (fun _ _ => true) old next0 done al (l, c, n) D N0 Lt A) as [st' Q'].
        { exists f. split; [exact F|]. split; [destruct (a_storage (r_attrs f)); [reflexivity|discriminate]|]. split; [|auto].
          intros E. rewrite E in Nl. cbn in Nl. destruct (a_null (r_attrs f)); [discriminate|reflexivity]. }
        { intros f' F'. specialize (Un [] al t f' eq_refl F'). rewrite app_nil_r in Un. exact Un. }
        unfold alter_one in Q'. rewrite F, S in Q'. cbn [negb] in Q'. rewrite Nl in Q'. destruct (get_at (r_id f) l) as [d|]; [|discriminate].
        destruct (al_type al) as [ty|].
        -- destruct (castable f ty); [|discriminate]. destruct (recast _ _ _ n ty) as [x n']. destruct (put_at (r_id f) x l); discriminate.
        -- destruct (put_at (r_id f) _ l); discriminate.
  - intros Un A. destruct (T Un A) as [st Q]. exists st. split; [exact Q|]. unfold alter_schema. rewrite Q. destruct st as [[l c] n]. reflexivity.
  - intros N r H. apply N. exact (proj1 (O r H)).
  - intros N r H. apply N. exact (proj2 (O r H)).
Qed.
(* names and nullability only: exactly the wished schema, if it is valid *)
Theorem alter_labels : forall castable next0 old als, NoDup (r_field_ids old) -> 0 <= next0 -> (forall i, In i (r_field_ids old) -> i < next0) ->
  Forall (fun al => al_type al = None) als ->
  let new := map (edited (wish al_rename old als) (wish al_null old als) (fun _ => None)) old in
  (Forall (allowed castable old) als -> valid new -> alter_schema castable next0 old als = Ok (new, [])) /\
  (~ Forall (allowed castable old) als \/ ~ valid new -> alter_schema castable next0 old als = Err).
Proof.
  intros castable next0 old als D N0 Lt NT new.
  assert (U : forall al t, In al als -> al_type al = Some t -> unset t) by (intros al t I E; rewrite Forall_forall in NT; rewrite (NT _ I) in E; discriminate).
  assert (NTy : forall pre i, incl pre als -> ~ typed old pre i).
  { intros pre i I (al & t & J & _ & E). rewrite Forall_forall in NT. rewrite (NT _ (I _ J)) in E. discriminate. }
  assert (Un : unhindered old als). { intros pre al post f E F (g & _ & _ & T). apply (NTy pre (r_id g)); auto. rewrite E. intros x X. apply in_or_app. left. exact X. }
  destruct (alter_exact castable next0 old als D N0 Lt U) as (E1 & E2 & E3 & E4).
  assert (Sh : forall r, alter_loop castable old (old, [], next0) als = Ok r -> exists n, r = (new, [], n)).
  { intros [[l c] n] Q. apply (loop_sound _ _ next0 _ []) in Q; auto; [|apply astep_init]. destruct Q as ((sw & El & _ & _ & _ & Ty & Ca) & _). cbn [app] in *. exists n.
    assert (Sn : forall i, sw i = None). { intros i. destruct (sw i) eqn:S; [|reflexivity]. exfalso. apply (NTy als i (incl_refl _)). apply Ty. congruence. }
    destruct c as [|[g f] c]; [|destruct (Ca g f (or_introl eq_refl)) as [_ S]; rewrite Sn in S; discriminate].
    f_equal. f_equal. rewrite El. apply edited_ext_list. intros i _. auto. }
  split.
  - intros A V. destruct (E2 Un A) as (st & Q & ->). destruct (Sh st Q) as [n ->]. replace (validate new) with true by (symmetry; apply validate_iff; exact V). reflexivity.
  - intros N. destruct (alter_schema castable next0 old als) as [[l c]| |] eqn:Q; [|reflexivity|exfalso; exact (E1 eq_refl Un)].
    exfalso. unfold alter_schema in Q. destruct (alter_loop castable old (old, [], next0) als) as [st| |] eqn:R; try discriminate. destruct (Sh st eq_refl) as [n ->]. cbn [obnd] in Q.
    destruct (validate new) eqn:V; [|discriminate]. apply validate_iff in V. destruct N as [N|N]; [|contradiction]. exact (E3 N _ eq_refl).
Qed.
