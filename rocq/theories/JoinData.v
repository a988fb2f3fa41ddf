(* C100: Dataset::merge as a whole. *)
From Coq Require Import List Arith NArith ZArith Bool Lia String Permutation.
From Verif Require Import Lib RowIdsModel SerdeModel ReadParamsModel DeletionModel DeletionSpec DeletionProofs FragReadModel FragReadProofs SchemaModel SchemaProofs ProjModel AddColsModel AddColsProofs AlterModel AlterProofs JoinModel JoinProofs.
Import ListNotations.
Open Scope list_scope.
Local Open Scope nat_scope.

(* ---- specification ---- *)
(* the schema with new fields at the end, under field ids above mx and all ids in use *)
Definition extended (old : list rfield) (mx : Z) (out final : list rfield) : Prop :=
  exists news, final = old ++ news /\ map shape news = map shape out /\ Forall (placed (-1)) news /\ NoDup (r_field_ids final) /\
    forall i, In i (r_field_ids news) -> (0 <= i)%Z /\ (mx < i)%Z /\ forall j, In j (r_field_ids old) -> (j < i)%Z.
(* the column joined on is a column of the dataset, or the row id or address *)
Definition left_column (old : list rfield) (on t : string) : Prop :=
  (exists f, In f old /\ r_name f = on /\ a_type (r_attrs f) = t /\ a_storage (r_attrs f) = SDefault) \/
  ((on = row_id_name \/ on = row_addr_name) /\ t = "uint64"%string /\ forall f, In f old -> r_name f <> on).
Definition right_columns (old right : list rfield) (on t : string) : Prop :=
  (exists f, In f right /\ r_name f = on /\ a_type (r_attrs f) = t) /\ (exists f, In f right /\ r_name f <> on) /\
  forall f, In f right -> r_name f <> on -> has_dot (r_name f) = false /\ forall g, In g old -> r_name g <> r_name f.
(* nulls only where the column and its type allow them *)
Definition nulls_allowed (out : list rfield) (vals : list cell) : Prop :=
  forall i f, nth_error out i = Some f -> nth_error vals i = Some None -> a_null (r_attrs f) = true /\ supports_nulls (a_type (r_attrs f)) = true.

(* ---- names ---- *)
Lemma split_plain : forall n, has_dot n = false -> split_dots n = [n].
Proof.
  induction n as [|c t IH]; cbn [has_dot split_dots]; [reflexivity|]. intros H. apply orb_false_iff in H as [H1 H2]. rewrite H1, IH by exact H2. reflexivity.
Qed.
Lemma schema_field_top : forall l n, has_dot n = false -> schema_field l n = lookup n l.
Proof. intros l n H. unfold schema_field. rewrite split_plain by exact H. cbn [field_at]. destruct (lookup n l); reflexivity. Qed.
Lemma lookup_none : forall n l, lookup n l = None <-> forall f, In f l -> r_name f <> n.
Proof.
  intros n l. unfold lookup. split.
  - intros H f J E. pose proof (find_none _ _ H f J) as X. cbn in X. apply String.eqb_neq in X. contradiction.
  - intros H. destruct (find _ l) as [f|] eqn:F; [|reflexivity]. apply find_some in F as [J E]. apply String.eqb_eq in E. exfalso. exact (H f J E).
Qed.

(* ---- the schema ---- *)
Lemma reset_name : forall f, r_name (reset_id f) = r_name f.
Proof. intros [a c]. reflexivity. Qed.
Lemma reset_shape : forall f, shape (reset_id f) = shape f.
Proof.
  induction f as [a c IH] using rfield_ind'. cbn [reset_id shape]. f_equal. rewrite map_map. apply map_ext_in. rewrite Forall_forall in IH. exact IH.
Qed.
Lemma reset_ids : forall f i, In i (r_field_ids [reset_id f]) -> i = (-1)%Z.
Proof.
  induction f as [a c IH] using rfield_ind'. intros i. cbn [reset_id]. rewrite ids_cons, ids_nil, app_nil_r. cbn [set_ids a_id]. intros [<-|J]; [reflexivity|].
  induction IH as [|x t Hx _ IHt]; [destruct J|]. cbn [map] in J. change (reset_id x :: map reset_id t) with ([reset_id x] ++ map reset_id t) in J. rewrite ids_app in J.
  apply in_app_or in J as [J|J]; auto.
Qed.
Lemma resets_ids : forall l i, In i (r_field_ids (map reset_id l)) -> i = (-1)%Z.
Proof.
  induction l as [|x t IH]; intros i J; [destruct J|]. cbn [map] in J. change (reset_id x :: map reset_id t) with ([reset_id x] ++ map reset_id t) in J. rewrite ids_app in J.
  apply in_app_or in J as [J|J]; [eapply reset_ids; exact J|auto].
Qed.
Lemma merge_disjoint : forall old o, (forall f, In f old -> has_dot (r_name f) = false) -> (forall f g, In f old -> In g o -> r_name f <> r_name g) -> merge_into old o = Ok old.
Proof.
  induction old as [|f t IH]; intros o V D; cbn [merge_into]; [reflexivity|]. rewrite schema_field_top by (apply V; left; reflexivity).
  replace (lookup (r_name f) o) with (@None rfield).
  - cbn [obnd]. rewrite IH; [reflexivity| |]; intros; [apply V|apply D]; auto; right; assumption.
  - symmetry. apply lookup_none. intros g J E. apply (D f g); auto. left. reflexivity.
Qed.
Lemma push_disjoint : forall o acc, NoDup (map r_name o) -> (forall f g, In f acc -> In g o -> r_name f <> r_name g) -> push_new acc o = acc ++ o.
Proof.
  induction o as [|x t IH]; intros acc N D; cbn [push_new]; [rewrite app_nil_r; reflexivity|]. cbn [map] in N. inversion N as [|? ? Nx Nt]; subst.
  replace (existsb _ acc) with false.
  - rewrite IH; [rewrite <- app_assoc; reflexivity|exact Nt|]. intros f g J K. apply in_app_or in J as [J|[<-|[]]]; [apply D; auto; right; exact K|].
    intros E. apply Nx. rewrite E. apply in_map. exact K.
  - symmetry. apply not_true_iff_false. intros E. apply existsb_exists in E as (f & J & E). apply String.eqb_eq in E. apply (D f x); auto. left. reflexivity.
Qed.
Lemma set_id_fixed : forall f p seed, placed p f -> (forall i, In i (r_field_ids [f]) -> (0 <= i)%Z) -> set_id p seed f = (f, seed).
Proof.
  induction f as [a c IH] using rfield_ind'. intros p seed P G. rewrite set_id_eq. inversion P as [? ? ? E _ F]; subst.
  rewrite ids_cons, ids_nil, app_nil_r in G. replace (a_id a <? 0)%Z with false by (symmetry; apply Z.ltb_ge; apply G; left; reflexivity).
  assert (L : set_id_list (a_id a) seed c = (c, seed)).
  { clear P. assert (Gc : forall i, In i (r_field_ids c) -> (0 <= i)%Z) by (intros; apply G; right; assumption). clear G.
    induction IH as [|x t Hx _ IHt]; cbn [set_id_list]; [reflexivity|]. inversion F as [|? ? Fx Ft]; subst. change (x :: t) with ([x] ++ t) in Gc. rewrite ids_app in Gc.
    rewrite Hx by (auto; intros; apply Gc, in_or_app; auto). rewrite IHt by (auto; intros; apply Gc, in_or_app; auto). reflexivity. }
  rewrite L. f_equal. f_equal. destruct a. reflexivity.
Qed.
Lemma set_list_fixed : forall l p seed, Forall (placed p) l -> (forall i, In i (r_field_ids l) -> (0 <= i)%Z) -> set_id_list p seed l = (l, seed).
Proof.
  induction l as [|x t IH]; intros p seed P G; cbn [set_id_list]; [reflexivity|]. inversion P; subst. change (x :: t) with ([x] ++ t) in G. rewrite ids_app in G.
  rewrite set_id_fixed by (auto; intros; apply G, in_or_app; auto). rewrite IH by (auto; intros; apply G, in_or_app; auto). reflexivity.
Qed.
Lemma set_list_app : forall l1 l2 p seed, set_id_list p seed (l1 ++ l2) =
  (let '(a, s1) := set_id_list p seed l1 in let '(b, s2) := set_id_list p s1 l2 in (a ++ b, s2)).
Proof.
  induction l1 as [|x t IH]; intros l2 p seed; cbn [app set_id_list]; [destruct (set_id_list p seed l2); reflexivity|].
  destruct (set_id p seed x) as [x' s1]. rewrite IH. destruct (set_id_list p s1 t) as [t' s2]. destruct (set_id_list p s2 l2). reflexivity.
Qed.
Lemma extend_ok : forall old mx out, valid old -> Forall (placed (-1)) old -> extended old mx out (set_field_id (Some mx) (old ++ map reset_id out)).
Proof.
  intros old mx out (_ & _ & ND & G) P. remember (set_field_id (Some mx) (old ++ map reset_id out)) as final eqn:E.
  assert (Gv : given (r_field_ids (old ++ map reset_id out)) = r_field_ids old).
  { rewrite ids_app, given_app. unfold given at 2. rewrite (filter_all_false _ (r_field_ids (map reset_id out))), app_nil_r.
    - unfold given. apply filter_all_true. intros i J. apply Z.leb_le. auto.
    - intros i J. rewrite (resets_ids _ _ J). reflexivity. }
  symmetry in E. destruct (set_field_id_ok _ _ _ E) as (Pl & N & V & Sh & Fr); [rewrite Gv; exact ND|].
  assert (X : exists news, final = old ++ news).
  { unfold set_field_id in E. rewrite set_list_app, set_list_fixed in E by assumption. destruct (set_id_list _ _ (map reset_id out)) as [b s2]. cbn in E. eauto. }
  destruct X as [news ->]. exists news. split; [reflexivity|]. split; [|split; [|split; [exact N|]]].
  - rewrite !map_app in Sh. apply app_inv_head in Sh. rewrite Sh, map_map. apply map_ext. apply reset_shape.
  - apply Forall_app in Pl. apply Pl.
  - assert (A : forall m, (m = -1 \/ In m (r_field_ids (old ++ map reset_id out)) \/ Some mx = Some m)%Z -> forall i, In i (r_field_ids news) -> (m < i)%Z).
    { intros m Hm i J. specialize (Fr m Hm). rewrite !ids_app in Fr.
      assert (Fb : Forall2 (fresh_above m) (r_field_ids (map reset_id out)) (r_field_ids news)).
      { clear -Fr. induction (r_field_ids old) as [|x t IH]; [exact Fr|]. cbn [app] in Fr. inversion Fr; subst. auto. }
      pose proof (resets_ids out) as R. clear -Fb J R. induction Fb as [|o n lo ln H Fb IH]; [destruct J|]. destruct J as [->|J]; [|apply IH; [exact J|intros; apply R; right; assumption]].
      rewrite (R o (or_introl eq_refl)) in H. exact H. }
    intros i J. split; [specialize (A (-1)%Z (or_introl eq_refl) i J); lia|]. split; [apply A; auto|]. intros j Jj. apply A; [|exact J]. right. left. rewrite ids_app. apply in_or_app. auto.
Qed.

(* ---- batches: a function of each row, with a condition on it ---- *)
Lemma batches_checked : forall {A B} (m : list A -> option (list B)) h p, (forall b, m b = if forallb p b then Some (map h b) else None) ->
  forall bs, map_batches m bs = if forallb p (List.concat bs) then map_batches (rowwise h) bs else Err.
Proof.
  intros A B m h p M. induction bs as [|b t IH]; cbn [map_batches List.concat]; [reflexivity|]. rewrite M, forallb_app. unfold rowwise at 1. rewrite map_length, Nat.eqb_refl.
  destruct (forallb p b); [|reflexivity]. cbn [andb]. rewrite map_length, Nat.eqb_refl, IH. destruct (forallb p (List.concat t)); reflexivity.
Qed.
Lemma impl_checked : forall {A B} u (m : list A -> option (list B)) h p fs gs, 0 < batch_rows u -> (forall b, m b = if forallb p b then Some (map h b) else None) ->
  (add_columns_impl u m fs = Ok gs <-> (forall f o, In f fs -> is_live f o -> p (af_row f o) = true) /\ add_columns_impl u (rowwise h) fs = Ok gs).
Proof.
  intros A B u m h p fs gs H M. rewrite !impl_ok.
  assert (One : forall f g, add_to_fragment u m f = Ok g <-> (forall o, is_live f o -> p (af_row f o) = true) /\ add_to_fragment u (rowwise h) f = Ok g).
  { intros f g. unfold add_to_fragment. rewrite (batches_checked m h p M), input_concat by exact H.
    destruct (forallb p (map (af_row f) (live_offs f))) eqn:F.
    - split; [|tauto]. intros X. split; [|exact X]. intros o L. rewrite forallb_forall in F. apply F, in_map, live_offs_in, L.
    - split; [discriminate|]. intros [L _]. exfalso. apply not_true_iff_false in F. apply F, forallb_forall. intros x J. apply in_map_iff in J as (o & <- & J). apply L, live_offs_in, J. }
  split.
  - intros F. induction F as [|f g t r G F IH]; [split; [intros f o []|constructor]|]. apply One in G as [L G]. destruct IH as [Lt Ft]. split; [|constructor; assumption].
    intros f' o [<-|J]; auto.
  - intros [L F]. induction F as [|f g t r G F IH]; constructor; [apply One; split; [|exact G]|apply IH]; intros; apply L; auto; (left; reflexivity) || (right; assumption).
Qed.
Lemma obnd_ok : forall {A B} (x : outcome A) (f : A -> outcome B) y, obnd x f = Ok y <-> exists a, x = Ok a /\ f a = Ok y.
Proof. intros A B [a| |] f y; cbn; split; try discriminate; [intros H; eauto|intros (b & [= ->] & H); exact H|intros (b & E & _); discriminate|intros (b & E & _); discriminate]. Qed.
Lemma fragments_sound : forall u final j t top st fs gs, 0 < batch_rows u -> merge_fragments u final j t top st fs = Ok gs -> add_columns_impl u (collect j t) fs = Ok gs.
Proof.
  intros u final j t top st. induction fs as [|f r IH]; intros gs H; cbn [merge_fragments add_columns_impl]; [auto|]. rewrite !obnd_ok.
  intros (g & G & X). rewrite obnd_ok in X. destruct X as (gs' & M & X). exists g. split; [|apply obnd_ok; eauto].
  unfold merge_fragment in G. destruct st; cbn [negb] in G; [|discriminate]. destruct (_ && _); [discriminate|]. apply obnd_ok in G as (g' & G & V). destruct (validate final); congruence.
Qed.
Lemma fragments_total : forall u final j t fs gs, validate final = true -> merge_fragments u final j t true true fs = Ok gs <-> add_columns_impl u (collect j t) fs = Ok gs.
Proof.
  intros u final j t fs gs V. revert gs. induction fs as [|f r IH]; intros gs; cbn [merge_fragments add_columns_impl]; [tauto|]. rewrite !obnd_ok. unfold merge_fragment. cbn [negb andb].
  split; intros (g & G & X); rewrite obnd_ok in X; destruct X as (gs' & M & X).
  - rewrite V in G. apply obnd_ok in G as (g' & G & E). injection E as ->. exists g. split; [exact G|]. apply obnd_ok. exists gs'. split; [apply IH; exact M|exact X].
  - exists g. rewrite V. split; [apply obnd_ok; eauto|]. apply obnd_ok. exists gs'. split; [apply IH; exact M|exact X].
Qed.
Lemma collect_checked : forall j t, t = jo_type j -> jo_fields j <> [] -> forall b, collect j t b = if forallb (fun k => row_ok (jo_fields j) (joined j k)) b then Some (map (joined j) b) else None.
Proof.
  intros j t -> N b. unfold collect. rewrite String.eqb_refl. cbn [negb]. destruct (jo_fields j) as [|f0 fl]; [congruence|]. cbv zeta.
  replace (forallb (row_ok (f0 :: fl)) (map (joined j) b)) with (forallb (fun k => row_ok (f0 :: fl) (joined j k)) b); [reflexivity|].
  induction b as [|k b IH]; cbn [forallb map]; [reflexivity|]. rewrite IH. reflexivity.
Qed.
Lemma collect_some : forall j t b x, collect j t b = Some x -> t = jo_type j /\ jo_fields j <> [].
Proof.
  intros j t b x. unfold collect. destruct (String.eqb_spec t (jo_type j)) as [E|E]; cbn [negb]; [|discriminate]. destruct (jo_fields j); [discriminate|]. intros _. split; [exact E|discriminate].
Qed.
Lemma row_ok_iff : forall out vals, row_ok out vals = true <-> nulls_allowed out vals.
Proof.
  unfold row_ok, nulls_allowed, null_ok. induction out as [|f t IH]; intros [|v vals]; cbn [combine forallb].
  - split; [|reflexivity]. intros _ i f E. destruct i; discriminate.
  - split; [|reflexivity]. intros _ i f E. destruct i; discriminate.
  - split; [|reflexivity]. intros _ i g _ E. destruct i; discriminate.
  - rewrite andb_true_iff, IH. cbn [fst snd]. split.
    + intros [A B] [|i] g E V; cbn in E, V; [|eapply B; eassumption]. injection E as <-. injection V as ->. cbn in A. apply andb_true_iff in A. tauto.
    + intros H. split; [|intros i g E V; exact (H (S i) g E V)]. destruct v as [z|]; [reflexivity|]. cbn [present orb]. destruct (H 0 f eq_refl eq_refl) as [-> ->]. reflexivity.
Qed.

(* ---- the checks before the join ---- *)
Lemma merge_split : forall u old mx fs left_on right bs right_on order gs final,
  valid old -> NoDup (map r_name right) -> merge_dataset u old mx fs left_on right bs right_on order = Ok (gs, final) ->
  exists t top j, left_key old left_on = Some (t, top) /\ try_new right bs right_on order = Ok j /\
    final = set_field_id (Some mx) (old ++ map reset_id (jo_fields j)) /\ merge_fragments u final j t top (left_storage_ok old left_on) fs = Ok gs.
Proof.
  intros u old mx fs left_on right bs right_on order gs final (ND & Dots & _) NR H. unfold merge_dataset in H.
  destruct (left_key old left_on) as [[t top]|]; [|discriminate]. destruct (index_of right_on right) as [k|] eqn:K; [|discriminate]. cbn [present negb] in H.
  destruct (existsb _ right) eqn:X; [discriminate|]. apply obnd_ok in H as (j & J & H). destruct (try_new_ok _ _ _ _ _ J) as (_ & _ & _ & F & _).
  exists t, top, j. split; [reflexivity|]. split; [exact J|].
  apply obnd_ok in H as (s & S & H). cbv zeta in H. apply obnd_ok in H as (gs' & G & H). injection H as -> <-.
  enough (s = old ++ map reset_id (jo_fields j)) as -> by auto.
  assert (Dj : forall f g, In f old -> In g (map reset_id (jo_fields j)) -> r_name f <> r_name g).
  { intros f g Jf Jg E. apply in_map_iff in Jg as (g0 & <- & Jg). rewrite reset_name in E. rewrite F in Jg. apply filter_In in Jg as [Jg On].
    apply not_true_iff_false in X. apply X, existsb_exists. exists g0. split; [exact Jg|]. rewrite On. cbn [andb]. rewrite schema_field_top by (rewrite <- E; apply Dots; exact Jf).
    destruct (lookup (r_name g0) old) eqn:L; [reflexivity|]. exfalso. rewrite lookup_none in L. exact (L f Jf E). }
  unfold schema_merge in S. cbv zeta in S. rewrite merge_disjoint in S by assumption. cbn [obnd] in S. injection S as <-. apply push_disjoint; [|exact Dj].
  rewrite map_map, (map_ext _ _ reset_name), F. clear -NR. induction right as [|f t IH]; cbn [filter map]; [constructor|]. inversion NR as [|? ? N D]; subst.
  destruct (negb _); cbn [map]; [constructor|]; auto. intros J. apply N. apply in_map_iff in J as (g & E & J). apply filter_In in J as [J _]. rewrite <- E. apply in_map. exact J.
Qed.

(* every accepted merge adds the columns of the right table by a left join, under fresh field ids; one
   answer per key for all rows of all fragments *)
Theorem merge_sound : forall u old mx fs left_on right bs right_on order gs final,
  valid old -> Forall (placed (-1)) old -> right_ok right bs -> Forall afrag_ok fs -> 0 < batch_rows u -> interleaving (slots bs) order ->
  merge_dataset u old mx fs left_on right bs right_on order = Ok (gs, final) ->
  exists out h, added right_on right out /\ extended old mx out final /\ (forall k, join_row right_on right bs out k (h k)) /\ Forall2 (computed h) fs gs /\
    forall f o, In f fs -> is_live f o -> nulls_allowed out (h (af_row f o)).
Proof.
  intros u old mx fs left_on right bs right_on order gs final V P R W U I H.
  destruct (merge_split _ _ _ _ _ _ _ _ _ _ _ V (proj1 R) H) as (t & top & j & _ & J & -> & M).
  destruct (try_new_ok _ _ _ _ _ J) as (_ & _ & _ & F & _). exists (jo_fields j), (joined j).
  split; [exact F|]. split; [apply extend_ok; assumption|]. split; [eapply joiner_spec; eassumption|]. apply fragments_sound in M; [|exact U].
  destruct fs as [|f0 fs].
  - cbn in M. injection M as <-. split; [constructor|intros f o []].
  - assert (C : t = jo_type j /\ jo_fields j <> []).
    { cbn [add_columns_impl] in M. apply obnd_ok in M as (g & G & _). destruct (input_batches u f0) as [|b bt] eqn:B.
      - exfalso. unfold add_to_fragment in G. rewrite B in G. discriminate G.
      - unfold add_to_fragment in G. rewrite B in G. apply obnd_ok in G as (new & Mb & _). cbn [map_batches] in Mb.
        destruct (collect j t b) as [x|] eqn:Q; [|discriminate]. eapply collect_some; exact Q. }
    destruct C as [C1 C2]. pose proof (collect_checked j t C1 C2) as CC. apply (impl_checked u _ _ _ _ _ U CC) in M as [L M]. split; [apply (rowwise_sound u); assumption|].
    intros f o Jf Lv. apply row_ok_iff. exact (L f o Jf Lv).
Qed.

(* with unique keys the order of the insertions does not matter *)
Theorem merge_order_free : forall u old mx fs left_on right bs right_on order order',
  right_ok right bs -> unique_keys right_on right bs -> interleaving (slots bs) order -> interleaving (slots bs) order' ->
  merge_dataset u old mx fs left_on right bs right_on order = merge_dataset u old mx fs left_on right bs right_on order'.
Proof.
  intros u old mx fs left_on right bs right_on order order' R U I I'. unfold merge_dataset.
  destruct (left_key old left_on) as [[t top]|]; [|reflexivity]. destruct (index_of right_on right) as [k|] eqn:K; [|reflexivity]. cbn [present negb].
  destruct (existsb _ right); [reflexivity|]. assert (TT : (try_new right bs right_on order = Err /\ try_new right bs right_on order' = Err) \/
    exists j j', try_new right bs right_on order = Ok j /\ try_new right bs right_on order' = Ok j' /\ jo_type j' = jo_type j).
  { unfold try_new. rewrite K. destruct bs; [left; auto|right]. do 2 eexists. split; [reflexivity|]. split; reflexivity. }
  destruct TT as [[-> ->]|(j & j' & T & T' & ET)]; [reflexivity|]. rewrite T, T'.
  destruct (try_new_ok _ _ _ _ _ T) as (_ & _ & _ & F & _). destruct (try_new_ok _ _ _ _ _ T') as (_ & _ & _ & F' & _).
  assert (EF : jo_fields j' = jo_fields j) by congruence.
  assert (EJ : forall k, joined j' k = joined j k).
  { intros k0. apply (join_unique right bs right_on (jo_fields j) R U F k0); [|exact (joiner_spec _ _ _ _ _ R I T k0)]. rewrite <- EF. exact (joiner_spec _ _ _ _ _ R I' T' k0). }
  cbn [obnd]. rewrite EF. destruct (schema_merge old (jo_fields j)) as [s| |]; cbn [obnd]; [|reflexivity..]. cbv zeta. f_equal.
  assert (EC : forall b, collect j' t b = collect j t b).
  { intros b. unfold collect. rewrite EF, ET. destruct (negb _); [reflexivity|]. destruct (jo_fields j); [reflexivity|]. cbv zeta. rewrite (map_ext _ _ EJ). reflexivity. }
  assert (EA : forall f, add_to_fragment u (collect j' t) f = add_to_fragment u (collect j t) f).
  { intros f. unfold add_to_fragment. f_equal. induction (input_batches u f) as [|b l IH]; cbn [map_batches]; [reflexivity|]. rewrite EC, IH. reflexivity. }
  induction fs as [|f r IH]; cbn [merge_fragments]; [reflexivity|]. rewrite IH. f_equal. unfold merge_fragment. rewrite EA. reflexivity.
Qed.
(* when a merge is accepted *)
Theorem merge_total : forall u old mx fs left_on right bs right_on order t out,
  valid old -> Forall (placed (-1)) old -> right_ok right bs -> unique_keys right_on right bs -> Forall afrag_ok fs -> 0 < batch_rows u -> u_legacy u = None -> interleaving (slots bs) order ->
  left_column old left_on t -> right_columns old right right_on t -> bs <> [] -> added right_on right out ->
  ((exists gs final, merge_dataset u old mx fs left_on right bs right_on order = Ok (gs, final)) <->
   Forall (first_live (batch_rows u)) fs /\
   forall f o vals, In f fs -> is_live f o -> join_row right_on right bs out (af_row f o) vals -> nulls_allowed out vals).
Proof.
  intros u old mx fs left_on right bs right_on order t out V P R UK W U L I LC RC NB Ad.
  destruct RC as ((kf & Jk & Nk & Tk) & (of & Jo & No) & RN). destruct R as [NR LR].
  assert (K : exists k, index_of right_on right = Some k /\ nth_error right k = Some kf).
  { destruct (index_of right_on right) as [k|] eqn:K.
    - exists k. split; [reflexivity|]. destruct (index_lt _ _ _ K) as [Lk (f & E & N)]. rewrite E. f_equal.
      apply nth_error_In in E. clear -NR Jk Nk E N. induction right as [|x r IH]; [destruct Jk|]. cbn [map] in NR. inversion NR as [|? ? Nx D]; subst.
      destruct Jk as [->|Jk], E as [->|E]; auto; exfalso; apply Nx; [rewrite <- N|rewrite N]; apply in_map; assumption.
    - exfalso. rewrite index_none in K. exact (K kf Jk Nk). }
  destruct K as (k & K & Ek).
  assert (LK : left_key old left_on = Some (t, true) /\ left_storage_ok old left_on = true).
  { destruct V as (ND & Dots & _). unfold left_key, left_storage_ok. destruct LC as [(f & Jf & Nf & Tf & Sf)|(E & -> & Nf)].
    - assert (D : has_dot left_on = false) by (rewrite <- Nf; apply Dots; exact Jf). rewrite schema_field_top by exact D.
      assert (Lf : lookup left_on old = Some f).
      { destruct (lookup left_on old) as [g|] eqn:Lg; [|exfalso; rewrite lookup_none in Lg; exact (Lg f Jf Nf)]. f_equal.
        unfold lookup in Lg. apply find_some in Lg as [Jg Eg]. apply String.eqb_eq in Eg. clear -ND Jf Nf Jg Eg.
        induction old as [|x r IH]; [destruct Jf|]. cbn [map] in ND. inversion ND as [|? ? Nx Dr]; subst.
        destruct Jf as [->|Jf], Jg as [->|Jg]; auto; exfalso; apply Nx; [rewrite <- Eg|rewrite Eg]; apply in_map; assumption. }
      rewrite Lf, split_plain by exact D. cbn [hd]. rewrite Lf, D, Tf, Sf. split; [reflexivity|apply orb_true_r].
    - assert (D : has_dot left_on = false) by (destruct E as [-> | ->]; reflexivity). rewrite schema_field_top by exact D.
      rewrite (proj2 (lookup_none left_on old) Nf). destruct E as [-> | ->]; split; reflexivity. }
  destruct LK as [LK LS].
  assert (X : existsb (fun f => negb (String.eqb (r_name f) right_on) && present (schema_field old (r_name f))) right = false).
  { apply not_true_iff_false. intros E. apply existsb_exists in E as (f & Jf & E). apply andb_true_iff in E as [E1 E2]. apply negb_true_iff, String.eqb_neq in E1.
    destruct (RN f Jf E1) as [D Nf]. rewrite schema_field_top in E2 by exact D. rewrite (proj2 (lookup_none _ old)) in E2; [discriminate|]. exact Nf. }
  assert (T : exists j, try_new right bs right_on order = Ok j) by (unfold try_new; rewrite K; destruct bs; [congruence|eauto]).
  destruct T as [j T]. destruct (try_new_ok _ _ _ _ _ T) as (k' & K' & _ & F & _ & _ & kf' & Ek' & Tj).
  assert (k' = k) as -> by congruence. assert (kf' = kf) as -> by congruence. rewrite Tk in Tj.
  assert (out = jo_fields j) as -> by (unfold added in Ad; congruence).
  assert (Ne : jo_fields j <> []).
  { rewrite F. intros E. assert (Jx : In of (filter (fun f => negb (String.eqb (r_name f) right_on)) right)) by (apply filter_In; split; [exact Jo|apply negb_true_iff, String.eqb_neq; exact No]). rewrite E in Jx. destruct Jx. }
  assert (NDo : NoDup (map r_name (jo_fields j))).
  { rewrite F. clear -NR. induction right as [|f r IH]; cbn [filter map]; [constructor|]. inversion NR as [|? ? N D]; subst.
    destruct (negb _); cbn [map]; [constructor|]; auto. intros J. apply N. apply in_map_iff in J as (g & E & J). apply filter_In in J as [J _]. rewrite <- E. apply in_map. exact J. }
  assert (Dj : forall f g, In f old -> In g (map reset_id (jo_fields j)) -> r_name f <> r_name g).
  { intros f g Jf Jg. apply in_map_iff in Jg as (g0 & <- & Jg). rewrite reset_name. rewrite F in Jg. apply filter_In in Jg as [Jg On].
    apply negb_true_iff, String.eqb_neq in On. apply (RN g0 Jg On). exact Jf. }
  assert (SM : schema_merge old (jo_fields j) = Ok (old ++ map reset_id (jo_fields j))).
  { unfold schema_merge. cbv zeta. rewrite merge_disjoint; [|apply V|exact Dj]. cbn [obnd]. rewrite push_disjoint; [reflexivity| |exact Dj].
    rewrite map_map, (map_ext _ _ reset_name). exact NDo. }
  set (final := set_field_id (Some mx) (old ++ map reset_id (jo_fields j))).
  assert (VF : validate final = true).
  { apply validate_iff. destruct (extend_ok old mx (jo_fields j) V P) as (news & E & Sh & _ & N & G). fold final in E, N. destruct V as (V1 & V2 & V3 & V4).
    assert (Names : map r_name news = map r_name (jo_fields j)).
    { clear -Sh. assert (Sn : forall f, r_name (shape f) = r_name f) by (intros [a c]; reflexivity).
      transitivity (map r_name (map shape news)); [rewrite map_map; apply map_ext; intros; symmetry; apply Sn|]. rewrite Sh, map_map. apply map_ext, Sn. }
    split; [|split; [|split; [exact N|]]].
    - rewrite E, map_app, Names. apply NoDup_app_r; [exact V1|exact NDo|]. intros n J1 J2. apply in_map_iff in J1 as (f & <- & J1). apply in_map_iff in J2 as (g & E2 & J2).
      apply (Dj f (reset_id g)); [exact J1|apply in_map; exact J2|]. rewrite reset_name. auto.
    - intros f Jf. rewrite E in Jf. apply in_app_or in Jf as [Jf|Jf]; [apply V2; exact Jf|]. assert (Jn : In (r_name f) (map r_name (jo_fields j))) by (rewrite <- Names; apply in_map; exact Jf).
      apply in_map_iff in Jn as (g & Eg & Jg). rewrite <- Eg. rewrite F in Jg. apply filter_In in Jg as [Jg On]. apply negb_true_iff, String.eqb_neq in On. apply (RN g Jg On).
    - intros i Ji. rewrite E, ids_app in Ji. apply in_app_or in Ji as [Ji|Ji]; [apply V4; exact Ji|]. apply (G i Ji). }
  assert (MD : forall gs fin, merge_dataset u old mx fs left_on right bs right_on order = Ok (gs, fin) <-> fin = final /\ add_columns_impl u (collect j t) fs = Ok gs).
  { intros gs fin. unfold merge_dataset. rewrite LK, K. cbn [present negb]. rewrite X, T. cbn [obnd]. rewrite SM. cbn [obnd]. cbv zeta. fold final. rewrite LS, obnd_ok. split.
    - intros (gs' & M & E). injection E as -> ->. split; [reflexivity|]. exact (proj1 (fragments_total _ _ _ _ _ _ VF) M).
    - intros [-> M]. exists gs. split; [|reflexivity]. apply fragments_total; assumption. }
  pose proof (collect_checked j t (eq_sym Tj) Ne) as CC. pose proof (rowwise_total u (joined j) fs W U L) as RT.
  assert (JS : forall k0, join_row right_on right bs (jo_fields j) k0 (joined j k0)) by (eapply joiner_spec; [split; eassumption|eassumption|eassumption]).
  split.
  - intros (gs & fin & M). apply MD in M as [_ M]. apply (impl_checked u _ _ _ _ _ U CC) in M as [Lv M]. split; [apply RT; eauto|].
    intros f o vals Jf Lo Jr. rewrite (join_unique right bs right_on (jo_fields j) (conj NR LR) UK F _ _ _ Jr (JS (af_row f o))). apply row_ok_iff. apply (Lv f o Jf Lo).
  - intros [FL NA]. apply RT in FL as [gs M]. exists gs, final. apply MD. split; [reflexivity|]. apply (impl_checked u _ _ _ _ _ U CC). split; [|exact M].
    intros f o Jf Lo. apply row_ok_iff. apply (NA f o); auto.
Qed.

(* ---- examples ---- *)
Definition ex_leaf (n t : string) (i : Z) : rfield := RF (Build_attrs n i (-1) t [] None true None SDefault) [].
Definition ex_old : list rfield := [ex_leaf "i" "int32" 0; ex_leaf "s" "string" 1].
Definition ex_right (t : string) : list rfield := [ex_leaf "v" t 0; ex_leaf "k" "int32" 1].
Definition ex_keys (f : N) (p : nat) (d : dv) (ks : list cell) : afrag cell := {| af_id := f; af_phys := p; af_del := d; af_row := fun o => nth o ks None |}.
Definition ex_fs : list (afrag cell) := [ex_keys 0 3 (DSet [1]%N) [Some 5; Some 6; None]%Z; ex_keys 1 2 NoDel [Some 7; Some 5]%Z].
Definition ex_bs : list (list (list cell)) := [[[Some 50; Some 5]; [None; Some 6]]; [[Some 70; Some 7]]]%Z.
Lemma old_ok : valid ex_old /\ Forall (placed (-1)) ex_old.
Proof.
  split.
  - apply validate_iff. reflexivity.
  - repeat (apply Forall_cons; [constructor; [reflexivity|left; reflexivity|constructor]|]). constructor.
Qed.
Lemma fs_ok : Forall afrag_ok ex_fs.
Proof.
  repeat (apply Forall_cons; [split; [cbn; auto; repeat (constructor; [cbn; tauto|]); constructor|intros x J; cbn in J; destruct J as [<-|[]] || destruct J; reflexivity]|]). apply Forall_nil.
Qed.
Lemma right_okb : forall t, right_ok (ex_right t) ex_bs.
Proof.
  intros t. split; [cbn; repeat (constructor; [cbn; intuition discriminate|]); constructor|]. intros r (b & Jb & Jr). cbn in Jb. repeat (destruct Jb as [<-|Jb]); try contradiction; cbn in Jr; repeat (destruct Jr as [<-|Jr]); try contradiction; reflexivity.
Qed.
(* the insertions of a first, then those of b, and the other way round *)
Lemma il_two : forall {A} (a b : list A), interleaving [a; b] (a ++ b) /\ interleaving [a; b] (b ++ a).
Proof.
  intros A. assert (One : forall (pre post : list (list A)) l, Forall (fun x => x = []) pre -> Forall (fun x => x = []) post -> interleaving (pre ++ l :: post) l).
  { intros pre post l P Q. induction l as [|x l IH]; [constructor; apply Forall_app; auto|]. apply il_step. exact IH. }
  intros a b. split.
  - induction a as [|x a IH]; [apply (One [[]] [] b); repeat constructor|]. apply (il_step []). exact IH.
  - induction b as [|x b IH]; [apply (One [] [[]] a); repeat constructor|]. apply (il_step [a]). exact IH.
Qed.
Example ex_merge :
  merge_dataset (ex_u 2) ex_old 4 ex_fs "i" (ex_right "string") ex_bs "k" [(0, 0); (1, 0); (0, 1)] =
    Ok ([{| uf_id := 0; uf_del := DSet [1]%N; uf_col := Some [[Some 50%Z]; [Some 50%Z]; [None]] |}; {| uf_id := 1; uf_del := NoDel; uf_col := Some [[Some 70%Z]; [Some 50%Z]] |}],
        ex_old ++ [ex_leaf "v" "string" 5]) /\
  interleaving (slots ex_bs) [(0, 0); (1, 0); (0, 1)] /\ unique_keys "k" (ex_right "string") ex_bs /\
  left_column ex_old "i" "int32" /\ right_columns ex_old (ex_right "string") "k" "int32" /\ Forall (first_live 2) ex_fs.
Proof.
  split; [vm_compute; reflexivity|]. split; [|split; [|split; [|split]]].
  - apply (il_step [] (0, 0) [(0, 1)] [[(1, 0)]]), (il_step [[(0, 1)]] (1, 0) [] []), (il_step [] (0, 1) [] [[]]). constructor. repeat constructor.
  - unfold unique_keys. vm_compute. repeat (constructor; [cbn; intuition discriminate|]). constructor.
  - left. exists (ex_leaf "i" "int32" 0). cbn. auto.
  - split; [exists (ex_leaf "k" "int32" 1); cbn; auto|]. split; [exists (ex_leaf "v" "string" 0); cbn; split; [auto|discriminate]|].
    intros f [<-|[<-|[]]] N; [|exfalso; apply N; reflexivity]. split; [reflexivity|]. intros g [<-|[<-|[]]]; discriminate.
  - repeat (apply Forall_cons; [exists 0; split; [lia|]; split; [cbn; lia|intros J; cbn in J; intuition discriminate]|]). apply Forall_nil.
Qed.

(* ---- a left join as SQL has it: no ---- *)
(* a null key on the left takes the row with a null key on the right *)
Theorem merge_null_keys_refuted : exists u old mx fs left_on right bs right_on order gs final f g o vals v,
  valid old /\ Forall (placed (-1)) old /\ right_ok right bs /\ Forall afrag_ok fs /\ 0 < batch_rows u /\ interleaving (slots bs) order /\ unique_keys right_on right bs /\
  merge_dataset u old mx fs left_on right bs right_on order = Ok (gs, final) /\ nth_error fs 0 = Some f /\ nth_error gs 0 = Some g /\
  is_live f o /\ af_row f o = None /\ uf_col g = Some vals /\ nth_error vals o = Some [Some v].
Proof.
  exists (ex_u 2), ex_old, 1%Z, [ex_keys 0 1 NoDel [None]], "i"%string, (ex_right "string"), [[[Some 9%Z; None]]], "k"%string, [(0, 0)].
  do 3 eexists. exists {| uf_id := 0; uf_del := NoDel; uf_col := Some [[Some 9%Z]] |}. exists 0, [[Some 9%Z]], 9%Z. destruct old_ok as [V P]. split; [exact V|]. split; [exact P|]. split; [|split; [|split; [|split; [|split; [|split]]]]].
  - split; [cbn; repeat (constructor; [cbn; intuition discriminate|]); constructor|]. intros r (b & [<-|[]] & [<-|[]]). reflexivity.
  - apply Forall_cons; [|apply Forall_nil]. split; [exact Logic.I|]. intros x [].
  - cbn. lia.
  - apply (il_step [] (0, 0) [] []). constructor. repeat constructor.
  - unfold unique_keys. cbn. repeat (constructor; [cbn; tauto|]). constructor.
  - vm_compute. reflexivity.
  - repeat (split; [reflexivity|]). split; [split; [cbn; lia|intros []]|]. repeat split.
Qed.
(* a key in two batches: which row is taken is up to the threads *)
Theorem merge_duplicates_refuted : exists u old mx fs left_on right bs right_on order order' gs gs' final final',
  valid old /\ right_ok right bs /\ Forall afrag_ok fs /\ 0 < batch_rows u /\ interleaving (slots bs) order /\ interleaving (slots bs) order' /\
  merge_dataset u old mx fs left_on right bs right_on order = Ok (gs, final) /\ merge_dataset u old mx fs left_on right bs right_on order' = Ok (gs', final') /\ gs <> gs'.
Proof.
  exists (ex_u 2), ex_old, 1%Z, [ex_keys 0 1 NoDel [Some 5%Z]], "i"%string, (ex_right "int32"), [[[Some 1; Some 5]]; [[Some 2; Some 5]]]%Z, "k"%string, [(0, 0); (1, 0)], [(1, 0); (0, 0)].
  do 4 eexists. split; [apply old_ok|]. split; [|split; [|split; [|split; [|split; [|split; [|split]]]]]].
  - split; [cbn; repeat (constructor; [cbn; intuition discriminate|]); constructor|]. intros r (b & Jb & Jr). cbn in Jb. repeat (destruct Jb as [<-|Jb]); try contradiction; destruct Jr as [<-|[]]; reflexivity.
  - apply Forall_cons; [|apply Forall_nil]. split; [exact Logic.I|]. intros x [].
  - cbn. lia.
  - exact (proj1 (il_two [(0, 0)] [(1, 0)])).
  - exact (proj2 (il_two [(0, 0)] [(1, 0)])).
  - vm_compute. reflexivity.
  - vm_compute. reflexivity.
  - discriminate.
Qed.
(* a row without a match: refused for a nullable column of integers *)
Theorem merge_unmatched_refuted : exists u old mx fs left_on right bs right_on order,
  valid old /\ right_ok right bs /\ unique_keys right_on right bs /\ Forall afrag_ok fs /\ 0 < batch_rows u /\ interleaving (slots bs) order /\ Forall (first_live (batch_rows u)) fs /\
  left_column old left_on "int32" /\ right_columns old right right_on "int32" /\ Forall (fun f => a_null (r_attrs f) = true) right /\
  merge_dataset u old mx fs left_on right bs right_on order = Err.
Proof.
  exists (ex_u 2), ex_old, 1%Z, [ex_keys 0 2 NoDel [Some 5; Some 6]%Z], "i"%string, (ex_right "int32"), [[[Some 1; Some 5]]]%Z, "k"%string, [(0, 0)].
  split; [apply old_ok|]. split; [|split; [|split; [|split; [|split; [|split; [|split; [|split; [|split]]]]]]]].
  - split; [cbn; repeat (constructor; [cbn; intuition discriminate|]); constructor|]. intros r (b & [<-|[]] & [<-|[]]). reflexivity.
  - unfold unique_keys. cbn. repeat (constructor; [cbn; tauto|]). constructor.
  - apply Forall_cons; [|apply Forall_nil]. split; [exact Logic.I|]. intros x [].
  - cbn. lia.
  - apply (il_step [] (0, 0) [] []). constructor. repeat constructor.
  - apply Forall_cons; [|apply Forall_nil]. exists 0. split; [cbn; lia|]. split; [cbn; lia|intros []].
  - left. exists (ex_leaf "i" "int32" 0). cbn. auto.
  - split; [exists (ex_leaf "k" "int32" 1); cbn; auto|]. split; [exists (ex_leaf "v" "int32" 0); cbn; split; [auto|discriminate]|].
    intros f [<-|[<-|[]]] N; [|exfalso; apply N; reflexivity]. split; [reflexivity|]. intros g [<-|[<-|[]]]; discriminate.
  - repeat constructor.
  - vm_compute. reflexivity.
Qed.
(* a column inside a struct passes the checks, and the join panics *)
Theorem merge_nested_refuted : exists u old mx fs left_on right bs right_on order,
  valid old /\ right_ok right bs /\ Forall afrag_ok fs /\ schema_field old left_on <> None /\ merge_dataset u old mx fs left_on right bs right_on order = Panic.
Proof.
  exists (ex_u 2), [RF (Build_attrs "a" 0 (-1) "struct" [] None true None SDefault) [RF (Build_attrs "b" 1 0 "int32" [] None true None SDefault) []]], 1%Z, [ex_keys 0 1 NoDel [Some 5]%Z], "a.b"%string,
    (ex_right "string"), [[[Some 1; Some 5]]]%Z, "k"%string, [(0, 0)].
  split; [apply validate_iff; reflexivity|]. split; [|split; [|split]].
  - split; [cbn; repeat (constructor; [cbn; intuition discriminate|]); constructor|]. intros r (b & [<-|[]] & [<-|[]]). reflexivity.
  - apply Forall_cons; [|apply Forall_nil]. split; [exact Logic.I|]. intros x [].
  - vm_compute. discriminate.
  - vm_compute. reflexivity.
Qed.
