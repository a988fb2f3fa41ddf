(* What alter_columns does to the data. *)
From Coq Require Import List Arith NArith ZArith Bool String Lia.
From Verif Require Import Lib AMap RowIdsModel SerdeModel ReadParamsModel DeletionModel DeletionProofs UpdaterProofs FragReadModel SchemaModel SchemaProofs ProjModel FragReadProofs AddColsModel AddColsProofs AlterModel AlterProofs.
Import ListNotations.
Open Scope list_scope.
Local Open Scope nat_scope.

(* ---- specification ---- *)
(* a surviving row *)
Definition row_live {V} (f : cfrag V) (o : nat) : Prop := o < cf_phys f /\ ~ dv_has (cf_del f) (N.of_nat o).
Definition cfrag_ok {V} (f : cfrag V) : Prop := dv_wf (cf_del f) /\ forall x, dv_has (cf_del f) x -> (x < N.of_nat (cf_phys f))%N.
(* g is f with its rows, deletions and remaining columns, and the columns altered to another type hold the casts *)
Definition altered_frag {V} (null : V) (cast : rfield -> rfield -> V -> option V) (old new : list rfield) (als : list alteration) (f g : cfrag V) : Prop :=
  cf_id g = cf_id f /\ cf_phys g = cf_phys f /\ cf_del g = cf_del f /\
  forall o, row_live f o ->
    (forall i, In i (r_field_ids old) -> In i (r_field_ids new) -> column null g i o = column null f i o) /\
    (forall k x, nth_error old k = Some x -> typed old als (r_id x) ->
       exists n, nth_error new k = Some n /\ cast x n (column null f (r_id x) o) = Some (column null g (r_id n) o)).

(* ---- lemmas ---- *)
Lemma sequence_opt_some : forall {A} (l : list (option A)) r, sequence_opt l = Some r <-> Forall2 (fun x y => x = Some y) l r.
Proof.
  intros A. induction l as [|x t IH]; intros r; cbn [sequence_opt].
  - split; [intros [= <-]; constructor|intros H; inversion H; reflexivity].
  - split.
    + intros H. destruct x as [y|]; [|discriminate]. destruct (sequence_opt t) as [ys|] eqn:E; [|discriminate]. injection H as <-. constructor; [reflexivity|]. apply IH. reflexivity.
    + intros H. inversion H as [|? y ? ys Hy Hs]; subst. apply IH in Hs. rewrite Hs. reflexivity.
Qed.
Lemma fold_max_le : forall l d x, In x l -> (x <= fold_right Z.max d l)%Z.
Proof. induction l as [|y t IH]; intros d x H; [destruct H|]. cbn [fold_right]. destruct H as [->|H]; [lia|]. specialize (IH d x H). lia. Qed.
Lemma schema_max_le : forall l i, In i (r_field_ids l) -> match schema_max_id l with Some m => (i <= m)%Z | None => False end.
Proof.
  intros l i H. destruct l as [|x t]; [destruct H|]. unfold schema_max_id.
  assert (G : forall l d, In i (r_field_ids l) -> (i <= fold_right Z.max d (map max_id l))%Z).
  { clear. induction l as [|y r IH]; intros d H; [destruct H|]. rewrite ids_split, in_app_iff in H. cbn [map fold_right].
    destruct H as [H|H]; [apply max_id_le in H; lia|specialize (IH d H); lia]. }
  apply G. exact H.
Qed.
Lemma below_next : forall {V} l (fs : list (cfrag V)), (0 <= max_field_id l fs + 1)%Z /\ (forall i, In i (r_field_ids l) -> (i < max_field_id l fs + 1)%Z) /\
  (forall f x i, In f fs -> In x (cf_files f) -> In i (fi_ids x) -> (i < max_field_id l fs + 1)%Z).
Proof.
  intros V l fs. unfold max_field_id. split; [|split].
  - assert (H : forall L, (-1 <= fold_right Z.max (-1) L)%Z) by (induction L as [|y t IH]; cbn [fold_right]; lia). specialize (H (flat_map (fun f => flat_map fi_ids (cf_files f)) fs)). lia.
  - intros i H. apply schema_max_le in H. destruct (schema_max_id l); [lia|destruct H].
  - intros f x i F X I. assert (J : In i (flat_map (fun f => flat_map fi_ids (cf_files f)) fs)) by (apply in_flat_map; exists f; split; [exact F|apply in_flat_map; eauto]).
    apply (fold_max_le _ (-1)) in J. lia.
Qed.
Lemma by_ids_top : forall ids l n, In n l -> memZ (r_id n) ids = true -> In n (project_by_ids ids true l).
Proof.
  intros ids l [a c] H M. unfold project_by_ids. apply in_flat_map. exists (RF a c). split; [exact H|]. cbn [f_by_ids]. unfold r_id in M. cbn [r_attrs] in M. rewrite M, orb_true_r. left. reflexivity.
Qed.
Lemma by_ids_whole : forall ids l n, In n (project_by_ids ids true l) -> memZ (r_id n) ids = true -> In n l.
Proof.
  intros ids l n H M. unfold project_by_ids in H. apply in_flat_map in H as ([a c] & H & X). cbn [f_by_ids] in X. destruct (memZ (a_id a) ids) eqn:E.
  - rewrite orb_true_r in X. cbn [andb] in X. destruct X as [<-|[]]. exact H.
  - cbn [andb] in X. destruct (flat_map (f_by_ids ids true) c); [destruct X|]. destruct X as [<-|[]]. unfold r_id in M. cbn [r_attrs] in M. congruence.
Qed.
Lemma position_some : forall n casts k, position n casts = Some k -> exists c, nth_error casts k = Some c /\ r_name (snd c) = n.
Proof.
  intros n. induction casts as [|c t IH]; intros k H; cbn [position] in H; [discriminate|]. destruct (String.eqb_spec (r_name (snd c)) n) as [E|E].
  - injection H as <-. exists c. auto.
  - destruct (position n t) as [j|]; [|discriminate]. cbn in H. injection H as <-. apply IH. reflexivity.
Qed.
Lemma position_in : forall casts c, In c casts -> exists k, position (r_name (snd c)) casts = Some k.
Proof.
  induction casts as [|d t IH]; intros c H; [destruct H|]. cbn [position]. destruct (String.eqb_spec (r_name (snd d)) (r_name (snd c))); [eauto|].
  destruct H as [->|H]; [contradiction|]. destruct (IH c H) as [k ->]. cbn. eauto.
Qed.
Lemma written_ok : forall casts ncs cols, written ncs casts = Ok cols ->
  (forall f, In f ncs -> exists c, In c casts /\ r_id (snd c) = r_id f) /\
  (forall f, In f ncs -> exists e, find (fun e => (fst e =? r_id f)%Z) cols = Some e /\ exists c, nth_error casts (snd e) = Some c /\ r_id (snd c) = r_id f).
Proof.
  intros casts. induction ncs as [|f t IH]; intros cols H; cbn [written] in H; [split; intros ? []|].
  destruct (position (r_name f) casts) as [k|]; [|discriminate]. destruct (nth_error casts k) as [c|] eqn:K; [|discriminate].
  destruct (Z.eqb_spec (r_id (snd c)) (r_id f)) as [E|]; [|discriminate]. destruct (written t casts) as [r| |]; try discriminate. cbn [obnd] in H. injection H as <-.
  destruct (IH r eq_refl) as [A B]. split.
  - intros g [<-|G]; [exists c; split; [exact (nth_error_In _ _ K)|exact E]|auto].
  - intros g G. cbn [find fst]. destruct (Z.eqb_spec (r_id f) (r_id g)) as [Eq|Ne].
    + exists (r_id f, k). split; [reflexivity|]. exists c. cbn [snd]. split; [exact K|congruence].
    + destruct G as [<-|G]; [contradiction|]. apply B. exact G.
Qed.
Lemma find_app_none : forall {A} (p : A -> bool) l m, find p l = None -> find p (l ++ m) = find p m.
Proof. intros A p. induction l as [|x t IH]; intros m H; cbn in *; [reflexivity|]. destruct (p x); [discriminate|auto]. Qed.
Lemma find_app_some : forall {A} (p : A -> bool) l m x, find p l = Some x -> find p (l ++ m) = Some x.
Proof. intros A p. induction l as [|y t IH]; intros m x H; cbn in *; [discriminate|]. destruct (p y); [exact H|auto]. Qed.
Lemma find_keep : forall {V} ids (l : list (afile V)) i, In i ids -> find (fun x => memZ i (fi_ids x)) (keep_files ids l) = find (fun x => memZ i (fi_ids x)) l.
Proof.
  intros V ids l i H. unfold keep_files. induction l as [|x t IH]; cbn [filter]; [reflexivity|]. cbn [find]. destruct (memZ i (fi_ids x)) eqn:M.
  - replace (existsb (fun j => memZ j ids) (fi_ids x)) with true; [cbn [find]; rewrite M; reflexivity|]. symmetry. apply existsb_exists. exists i. split; [apply memZ_In; exact M|apply memZ_In; exact H].
  - destruct (existsb (fun j => memZ j ids) (fi_ids x)); [cbn [find]; rewrite M; exact IH|exact IH].
Qed.
Lemma Forall2_nth : forall {A B} (R : A -> B -> Prop) l m j a, Forall2 R l m -> nth_error l j = Some a -> exists b, nth_error m j = Some b /\ R a b.
Proof.
  intros A B R l m j a F. revert j. induction F as [|x y l m Rx _ IH]; intros [|j] E; cbn in *; try discriminate; [injection E as <-; eauto|apply IH; exact E].
Qed.
(* the rows written *)
Lemma cast_rows : forall {V} (null : V) cast u old casts f g, afrag_ok (as_afrag null f) -> 0 < batch_rows u ->
  add_to_fragment u (cast_batch cast old casts) (as_afrag null f) = Ok g ->
  exists out, uf_col g = Some out /\ forall o, row_live f o -> exists row, nth_error out o = Some row /\ cast_row cast old casts (fun i => column null f i o) = Some row.
Proof.
  intros V null cast u old casts f g W H X. apply fragment_sound in X as (new & F & _ & _ & L & out & C & Lo & Vv); auto. exists out. split; [exact C|].
  intros o J. assert (J' : In o (live_offs (as_afrag null f))) by (apply live_offs_in; exact J). apply In_nth_error in J' as [k K]. rewrite (Vv k o K).
  assert (E : Forall2 (fun r row => cast_row cast old casts r = Some row) (List.concat (input_batches u (as_afrag null f))) (List.concat new)).
  { clear -F. induction F as [|b x bs new [Hx _] _ IHF]; [constructor|]. cbn [List.concat]. apply Forall2_app; [|exact IHF]. unfold cast_batch in Hx. apply sequence_opt_some in Hx.
    clear -Hx. revert x Hx. induction b as [|r b IH]; intros x Hx; inversion Hx; subst; constructor; auto. }
  rewrite input_concat in E by exact H.
  destruct (Forall2_nth _ _ _ k (fun i => column null f i o) E) as (row & A & B); [rewrite nth_error_map, K; reflexivity|]. eauto.
Qed.
Lemma lookup_top : forall l x, NoDup (map r_name l) -> In x l -> lookup (r_name x) l = Some x.
Proof.
  intros l x. unfold lookup. induction l as [|y t IH]; intros D H; [destruct H|]. cbn [map] in D. inversion D as [|? ? Ny Dt]; subst. cbn [find].
  destruct (String.eqb_spec (r_name y) (r_name x)) as [E|E].
  - destruct H as [->|H]; [reflexivity|]. exfalso. apply Ny. rewrite E. apply in_map. exact H.
  - destruct H as [->|H]; [contradiction|auto].
Qed.
Lemma top_in_pre : forall x l, In x l -> In x (fields_pre_order l).
Proof. intros x l H. unfold fields_pre_order. apply in_flat_map. exists x. split; [exact H|]. destruct x as [a c]. left. reflexivity. Qed.

(* every remaining column keeps its values, every cast column holds the casts *)
Theorem alter_data_sound : forall {V} (null : V) is_null cast castable u old (fs : list (cfrag V)) als new gs,
  NoDup (r_field_ids old) -> NoDup (map r_name old) -> (forall al t, In al als -> al_type al = Some t -> unset t) -> 0 < batch_rows u -> Forall cfrag_ok fs ->
  alter_columns null is_null cast castable u old fs als = Ok (new, gs) -> Forall2 (altered_frag null cast old new als) fs gs.
Proof.
  intros V null is_null cast castable u old fs als new gs D Dn U B W H. unfold alter_columns in H.
  destruct (below_next old fs) as (N0 & Lt & Lf). set (next0 := (max_field_id old fs + 1)%Z) in *.
  destruct (alter_schema castable next0 old als) as [[l casts]| |] eqn:Q; try discriminate. cbn [obnd] in H.
  destruct (alter_sound castable next0 old als l casts D N0 Lt U Q) as (Vn & sw & El & Ty & Sw & Dj & Ca).
  destruct casts as [|c0 casts0] eqn:Ec.
  - injection H as <- <-. apply Forall_forall in W || idtac. clear W Q.
    assert (NT : forall i, ~ typed old als i -> True) by auto.
    enough (G : forall f, altered_frag null cast old l als f f) by (clear -G; induction fs; constructor; auto).
    intros f. repeat split; auto. intros k x K T. exfalso. apply Ty in T. destruct (sw (r_id x)) as [n|] eqn:S; [|congruence].
    apply (proj2 (Ca x n)). split; [apply top_in_pre, (nth_error_In _ _ K)|exact S].
  - rewrite <- Ec in *. assert (Hc : match casts with [] => Ok (l, fs) | _ :: _ => obnd (alter_fragments null is_null cast u old l casts fs) (fun gs0 => Ok (l, gs0)) end =
      obnd (alter_fragments null is_null cast u old l casts fs) (fun gs0 => Ok (l, gs0))) by (rewrite Ec; reflexivity).
    clear Ec c0 casts0. rewrite Hc in H || idtac. clear Hc.
    destruct (alter_fragments null is_null cast u old l casts fs) as [gs'| |] eqn:A; try discriminate. cbn [obnd] in H. injection H as <- <-.
    assert (One : forall f g, In f fs -> cfrag_ok f -> alter_fragment null is_null cast u old l casts f = Ok g -> altered_frag null cast old l als f g).
    { intros f g Hf Wf X. unfold alter_fragment in X. destruct (negb _ && _); [discriminate|].
      destruct (add_to_fragment u (cast_batch cast old casts) (as_afrag null f)) as [a| |] eqn:Ad; try discriminate. cbn [obnd] in X.
      destruct (cast_rows null cast u old casts f a Wf B Ad) as (out & Co & Rows). rewrite Co in X.
      destruct (forallb (nulls_ok is_null _) out); [|discriminate]. set (ncs := project_by_ids (map (fun c => r_id (snd c)) casts) true l) in *.
      destruct (written ncs casts) as [cols| |] eqn:Wr; try discriminate. cbn [obnd] in X. injection X as <-.
      destruct (written_ok _ _ _ Wr) as [Wr1 Wr2].
      assert (Fresh : forall i, In i (r_field_ids ncs) -> (next0 <= i)%Z).
      { intros i Hi. apply of_ids in Hi as (h & Hh & <-). unfold fields_pre_order in Hh. apply in_flat_map in Hh as (n & Hn & Hh).
        destruct (Wr1 n Hn) as ([x n'] & Hc & E). cbn [snd] in E.
        assert (Nl : In n l). { apply (by_ids_whole (map (fun c => r_id (snd c)) casts)); [exact Hn|]. apply memZ_In. rewrite <- E. apply in_map_iff. exists (x, n'). auto. }
        apply Ca in Hc as [Hx S]. destruct (Sw _ _ S) as (g0 & t0 & _ & _ & _ & (_ & _ & R & _)).
        assert (Ge : (next0 <= r_id n)%Z). { rewrite <- E. apply R. apply ids_of. rewrite pre_list. destruct n' as [aa cc]. left. reflexivity. }
        rewrite El in Nl. apply in_map_iff in Nl as (y & Ey & Hy). destruct (sw (r_id y)) as [m|] eqn:Sy.
        - assert (m = n) as ->. { rewrite <- Ey. destruct y as [aa cc]. rewrite edited_eq. unfold r_id in Sy. cbn [r_attrs] in Sy. rewrite Sy. reflexivity. }
          destruct (Sw _ _ Sy) as (_ & _ & _ & _ & _ & (_ & _ & R' & _)). apply R'. apply ids_of. rewrite pre_list. exact Hh.
        - exfalso. rewrite <- Ey in Ge. rewrite edited_id in Ge by exact Sy. specialize (Lt (r_id y) (ids_of _ _ (top_in_pre _ _ Hy))). lia. }
      split; [reflexivity|]. split; [reflexivity|]. split; [reflexivity|]. intros o Lo. split.
      - intros i Io In_. unfold column. cbn [cf_files]. rewrite find_keep by exact In_.
        destruct (find (fun x => memZ i (fi_ids x)) (cf_files f)) as [x|] eqn:Fi; [rewrite (find_app_some _ _ _ _ Fi); reflexivity|]. rewrite find_app_none by exact Fi.
        cbn [find new_file fi_ids]. destruct (memZ i (r_field_ids ncs)) eqn:M; [|reflexivity]. exfalso. apply memZ_In in M. apply Fresh in M. specialize (Lt i Io). lia.
      - intros k x K T. apply Ty in T. destruct (sw (r_id x)) as [n|] eqn:S; [|congruence]. pose proof (nth_error_In _ _ K) as Hx.
        exists n. assert (Kn : nth_error l k = Some n).
        { rewrite El, nth_error_map, K. cbn. f_equal. destruct x as [aa cc]. rewrite edited_eq. unfold r_id in S. cbn [r_attrs] in S. rewrite S. reflexivity. }
        split; [exact Kn|]. pose proof (nth_error_In _ _ Kn) as Hn.
        assert (Hc : In (x, n) casts) by (apply Ca; split; [apply top_in_pre; exact Hx|exact S]).
        assert (Hn' : In n ncs). { apply by_ids_top; [exact Hn|]. apply memZ_In. apply in_map_iff. exists (x, n). auto. }
        destruct (Wr2 n Hn') as ([e1 j] & Fe & [x' n'] & Kc & E). cbn [snd] in Kc, E.
        assert (Ids : forall y : rfield, In (r_id y) (r_field_ids [y])) by (intros [aa cc]; rewrite ids_node; left; reflexivity).
        assert (Same : (x', n') = (x, n)).
        { pose proof (nth_error_In _ _ Kc) as Hc'. apply Ca in Hc' as [Hx' S'].
          assert (r_id x' = r_id x). { apply (Dj _ _ _ _ (r_id n) S' S); [rewrite <- E; apply Ids|apply Ids]. }
          assert (x' = x) by (apply (same_id old); auto; apply top_in_pre; exact Hx). subst x'. congruence. }
        rewrite Same in Kc. clear x' n' E Same.
        assert (Cg : column null {| cf_id := cf_id f; cf_phys := cf_phys f; cf_del := cf_del f; cf_files := keep_files (r_field_ids l) (cf_files f ++ [new_file null ncs cols out]) |} (r_id n) o =
                     nth j (nth o out []) null).
        { unfold column. cbn [cf_files]. rewrite find_keep by (apply ids_of, top_in_pre; exact Hn).
          assert (Fi : find (fun x => memZ (r_id n) (fi_ids x)) (cf_files f) = None).
          { destruct (find _ (cf_files f)) as [z|] eqn:Fi; [|reflexivity]. exfalso. apply find_some in Fi as [Fz M]. apply memZ_In in M. specialize (Lf f z (r_id n) Hf Fz M).
            assert ((next0 <= r_id n)%Z) by (apply Fresh, ids_of, top_in_pre; exact Hn'). lia. }
          rewrite find_app_none by exact Fi. cbn [find new_file fi_ids]. replace (memZ (r_id n) (r_field_ids ncs)) with true by (symmetry; apply memZ_In, ids_of, top_in_pre; exact Hn').
          unfold new_file. cbn [fi_col]. rewrite Fe. reflexivity. }
        rewrite Cg. destruct (Rows o Lo) as (row & Ro & Cr). rewrite (nth_error_nth _ _ [] Ro). unfold cast_row in Cr. apply sequence_opt_some in Cr.
        destruct (Forall2_nth _ _ _ j (match lookup (r_name x) old with Some t => cast x n (column null f (r_id t) o) | None => None end) Cr) as (v & Nv & Ev).
        { rewrite nth_error_map, Kc. reflexivity. }
        rewrite (nth_error_nth _ _ null Nv). rewrite (lookup_top old x Dn Hx) in Ev. exact Ev. }
    clear -One W A. revert gs' A. induction fs as [|f t IH]; intros gs' A; cbn [alter_fragments] in A; [injection A as <-; constructor|].
    destruct (alter_fragment null is_null cast u old l casts f) as [g| |] eqn:G; try discriminate. cbn [obnd] in A.
    destruct (alter_fragments null is_null cast u old l casts t) as [r| |]; try discriminate. cbn [obnd] in A. injection A as <-.
    inversion W; subst. constructor; [apply One; auto; left; reflexivity|]. apply IH; auto. intros f0 g0 I. apply One. right. exact I.
Qed.

(* ---- when it goes through ---- *)
Lemma written_total : forall casts ncs, (forall f, In f ncs -> exists c, In c casts /\ snd c = f) ->
  (forall c d, In c casts -> In d casts -> r_name (snd c) = r_name (snd d) -> snd c = snd d) -> exists cols, written ncs casts = Ok cols.
Proof.
  intros casts. induction ncs as [|f t IH]; intros H U; cbn [written]; [eauto|]. destruct (H f (or_introl eq_refl)) as (c & C & <-).
  destruct (position_in casts c C) as [k P]. rewrite P. apply position_some in P as (d & K & E). rewrite K. rewrite (U d c (nth_error_In _ _ K) C E), Z.eqb_refl.
  destruct IH as [r ->]; auto. { intros g G. apply H. right. exact G. } cbn [obnd]. eauto.
Qed.
Lemma map_batches_ext : forall {A B} (m m' : list A -> option (list B)) bs, (forall b, In b bs -> m b = m' b) -> map_batches m bs = map_batches m' bs.
Proof.
  intros A B m m'. induction bs as [|b t IH]; intros H; cbn [map_batches]; [reflexivity|]. rewrite (H b (or_introl eq_refl)), IH; [reflexivity|]. intros x X. apply H. right. exact X.
Qed.
Theorem alter_data_total : forall {V} (null : V) is_null cast castable u old (fs : list (cfrag V)) als new casts,
  NoDup (r_field_ids old) -> NoDup (map r_name old) -> (forall al t, In al als -> al_type al = Some t -> unset t) -> 0 < batch_rows u -> u_legacy u = None -> Forall cfrag_ok fs ->
  alter_schema castable (max_field_id old fs + 1) old als = Ok (new, casts) ->
  (forall x n, In (x, n) casts -> In x old /\ a_null (r_attrs n) = true) ->
  (forall f, In f fs -> exists o, o < batch_rows u /\ row_live f o) ->
  (forall f x n o, In f fs -> In (x, n) casts -> row_live f o -> exists v, cast x n (column null f (r_id x) o) = Some v) ->
  exists gs, alter_columns null is_null cast castable u old fs als = Ok (new, gs).
Proof.
  intros V null is_null cast castable u old fs als new casts D Dn U B Lg W Q Top Fl Cs. unfold alter_columns. rewrite Q. cbn [obnd].
  destruct (below_next old fs) as (N0 & Lt & Lf).
  destruct (alter_sound castable _ old als new casts D N0 Lt U Q) as (Vn & sw & El & Ty & Sw & Dj & Ca).
  enough (G : exists gs, alter_fragments null is_null cast u old new casts fs = Ok gs).
  { destruct G as [gs G]. destruct casts; [eauto|]. rewrite G. cbn [obnd]. eauto. }
  assert (New : forall x n, In (x, n) casts -> In n new).
  { intros x n C. destruct (Top x n C) as [X _]. apply Ca in C as [_ S]. rewrite El. apply in_map_iff. exists x. split; [|exact X].
    destruct x as [a c]. rewrite edited_eq. unfold r_id in S. cbn [r_attrs] in S. rewrite S. reflexivity. }
  assert (Names : forall n m, In n new -> In m new -> r_name n = r_name m -> n = m).
  { destruct Vn as (Vn & _). intros n m N M E. pose proof (lookup_top new n Vn N) as A. rewrite E, (lookup_top new m Vn M) in A. congruence. }
  assert (One : forall f, In f fs -> cfrag_ok f -> exists g, alter_fragment null is_null cast u old new casts f = Ok g).
  { intros f Hf Wf. unfold alter_fragment.
    replace (forallb (fun c => existsb (String.eqb (r_name (fst c))) (read_names old casts)) casts) with true.
    2:{ symmetry. apply forallb_forall. intros [x n] C. cbn [fst]. apply existsb_exists. exists (r_name x). split; [|apply String.eqb_refl]. unfold read_names. apply in_flat_map. exists (x, n). split; [exact C|].
        cbn [fst]. destruct (Top x n C) as [X _]. unfold top_of. destruct (find (fun f0 => memZ (r_id x) (r_field_ids [f0])) old) as [y|] eqn:Fy.
        - apply find_some in Fy as [Hy My]. apply memZ_In in My. left. f_equal.
          assert (Ix : In (r_id x) (r_field_ids [x])) by (destruct x; rewrite ids_node; left; reflexivity).
          clear -D Hy My X Ix. induction old as [|z t IH]; [destruct X|]. rewrite ids_split in D. destruct (NoDup_app_l _ _ _ D) as (D1 & D2 & Dd).
          assert (Sub : forall w i, In w t -> In i (r_field_ids [w]) -> In i (r_field_ids t)) by (intros w i Hw Hi; apply (under w); [apply top_in_pre; exact Hw|exact Hi]).
          destruct X as [->|X], Hy as [->|Hy]; auto.
          + exfalso. exact (Dd _ Ix (Sub _ _ Hy My)).
          + exfalso. exact (Dd _ My (Sub _ _ X Ix)).
        - exfalso. apply find_none with (x := x) in Fy; [|exact X]. apply Bool.not_true_iff_false in Fy. apply Fy. apply memZ_In. destruct x; rewrite ids_node; left; reflexivity. }
    cbn [negb andb].
    set (h := fun r => match cast_row cast old casts r with Some y => y | None => [] end).
    assert (Rows : forall o, row_live f o -> cast_row cast old casts (fun i => column null f i o) = Some (h (fun i => column null f i o))).
    { intros o Lo. unfold h. destruct (cast_row cast old casts (fun i => column null f i o)) eqn:R; [reflexivity|]. exfalso. unfold cast_row in R.
      assert (X : forall cs, incl cs casts -> sequence_opt (map (fun c => match lookup (r_name (fst c)) old with Some t => cast (fst c) (snd c) (column null f (r_id t) o) | None => None end) cs) <> None).
      { induction cs as [|[x n] cs IH]; intros I; cbn [map sequence_opt]; [discriminate|]. cbn [fst snd]. specialize (I (x, n) (or_introl eq_refl)) as C. destruct (Top x n C) as [X _].
        rewrite (lookup_top old x Dn X). destruct (Cs f x n o Hf C Lo) as [v ->]. 
        destruct (sequence_opt (map _ cs)) eqn:Z; [discriminate|]. exfalso. apply IH; [intros y Y; apply I; right; exact Y|reflexivity]. }
      exact (X casts (incl_refl _) R). }
    assert (Ad : exists a, add_to_fragment u (cast_batch cast old casts) (as_afrag null f) = Ok a).
    { assert (E : add_to_fragment u (cast_batch cast old casts) (as_afrag null f) = add_to_fragment u (rowwise h) (as_afrag null f)).
      { unfold add_to_fragment. rewrite (map_batches_ext _ (rowwise h)); [reflexivity|]. intros b Hb. unfold cast_batch, rowwise. apply sequence_opt_some.
        assert (Hl : forall r, In r b -> exists o, r = (fun i => column null f i o) /\ row_live f o).
        { intros r Hr. unfold input_batches in Hb. apply in_map_iff in Hb as (c & <- & Hc). apply in_map_iff in Hr as (o & <- & Ho). exists o. split; [reflexivity|].
          apply filter_In in Ho as [Ho Hd]. cbn [af_del as_afrag] in Hd. split.
          - assert (J : In o (List.concat (chunks (batch_rows u) (seq 0 (af_phys (as_afrag null f)))))) by (apply in_concat; eauto). rewrite chunks_concat in J by exact B. apply in_seq in J. cbn in J. lia.
          - unfold deleted_at in Hd. apply negb_true_iff, memN_false in Hd. exact Hd. }
        clear Hb. induction b as [|r b IH]; constructor.
        - destruct (Hl r (or_introl eq_refl)) as (o & -> & Lo). apply Rows. exact Lo.
        - apply IH. intros y Y. apply Hl. right. exact Y. }
      assert (W1 : Forall afrag_ok [as_afrag null f]) by (constructor; [exact Wf|constructor]).
      rewrite E. destruct (proj2 (rowwise_total u h [as_afrag null f] W1 B Lg)) as [gs G].
      - constructor; [|constructor]. destruct (Fl f Hf) as (o & Lo & Lv). exists o. split; [exact Lo|exact Lv].
      - cbn [add_columns_impl] in G. destruct (add_to_fragment u (rowwise h) (as_afrag null f)); try discriminate. eauto. }
    destruct Ad as [a Ad]. rewrite Ad. cbn [obnd]. destruct (uf_col a) as [out|]; [|eauto].
    set (ncs := project_by_ids (map (fun c => r_id (snd c)) casts) true new).
    assert (Ncs : forall n, In n ncs -> exists c, In c casts /\ snd c = n).
    { intros n Hn. unfold ncs, project_by_ids in Hn. apply in_flat_map in Hn as (m & Hm & X).
      (* the ids of the casts are ids of fields at the top of the new schema *)
      assert (Sub : forall y i, In y new -> In i (r_field_ids (r_children y)) -> memZ i (map (fun c => r_id (snd c)) casts) = false).
      { intros y i Hy Hi. apply memZ_false. intros J. apply in_map_iff in J as ([x z] & <- & C). cbn [snd] in Hi. pose proof (New x z C) as Hz. destruct Vn as (_ & _ & Vi & _).
        clear -Vi Hy Hi Hz. assert (Iz : In (r_id z) (r_field_ids [z])) by (destruct z; rewrite ids_node; left; reflexivity).
        induction new as [|w t IH]; [destruct Hy|]. rewrite ids_split in Vi. destruct (NoDup_app_l _ _ _ Vi) as (D1 & D2 & Dd).
        assert (S : forall v i, In v t -> In i (r_field_ids [v]) -> In i (r_field_ids t)) by (intros v i Hv Hi'; apply (under v); [apply top_in_pre; exact Hv|exact Hi']).
        assert (Ch : forall v i, In i (r_field_ids (r_children v)) -> In i (r_field_ids [v])) by (intros [a c] i H; rewrite ids_node; right; exact H).
        destruct Hy as [->|Hy], Hz as [->|Hz].
        - destruct z as [a c]. rewrite ids_node in D1. inversion D1. contradiction.
        - exact (Dd _ (Ch _ _ Hi) (S _ _ Hz Iz)).
        - exact (Dd _ Iz (S _ _ Hy (Ch _ _ Hi))).
        - exact (IH D2 Hy Hz). }
      assert (Emp : forall l, (forall i, In i (r_field_ids l) -> memZ i (map (fun c => r_id (snd c)) casts) = false) -> flat_map (f_by_ids (map (fun c => r_id (snd c)) casts) true) l = []).
      { clear. assert (O : forall y, (forall i, In i (r_field_ids [y]) -> memZ i (map (fun c => r_id (snd c)) casts) = false) -> f_by_ids (map (fun c => r_id (snd c)) casts) true y = []).
        { induction y as [a c IH] using rfield_ind'. intros H. rewrite ids_node in H. cbn [f_by_ids]. rewrite (H (a_id a) (or_introl eq_refl)). cbn [andb].
          replace (flat_map (f_by_ids (map (fun c0 => r_id (snd c0)) casts) true) c) with (@nil rfield); [reflexivity|]. symmetry.
          assert (H' : forall i, In i (r_field_ids c) -> memZ i (map (fun c => r_id (snd c)) casts) = false) by (intros i I; apply H; right; exact I). clear H.
          induction IH as [|x t Hx Ht IHt]; [reflexivity|]. cbn [flat_map]. rewrite Hx, IHt; [reflexivity| |]; intros i I; apply H'; rewrite ids_split; apply in_or_app; tauto. }
        induction l as [|x t IH]; intros H; [reflexivity|]. cbn [flat_map]. rewrite O, IH; [reflexivity| |]; intros i I; apply H; rewrite ids_split; apply in_or_app; tauto. }
      destruct m as [ma mc]. cbn [f_by_ids] in X. rewrite (Emp mc (fun i => Sub (RF ma mc) i Hm)) in X. destruct (memZ (a_id ma) (map (fun c => r_id (snd c)) casts)) eqn:M; cbn [andb orb] in X; [|destruct X].
      destruct X as [<-|[]]. apply memZ_In in M. apply in_map_iff in M as ([x z] & E & C). cbn [snd] in E. exists (x, z). split; [exact C|]. cbn [snd].
      apply (same_id new); [destruct Vn as (_ & _ & Vi & _); exact Vi|apply top_in_pre; exact (New x z C)|apply top_in_pre; exact Hm|exact E]. }
    replace (forallb (nulls_ok is_null ncs) out) with true.
    2:{ symmetry. apply forallb_forall. intros row _. unfold nulls_ok. apply forallb_forall. intros [v n] Hv. apply in_combine_r in Hv. destruct (Ncs n Hv) as ([x z] & C & <-). cbn [snd].
        rewrite (proj2 (Top x z C)). reflexivity. }
    destruct (written_total casts ncs Ncs) as [cols ->].
    { intros [x n] [y m] C C' E. cbn [snd] in *. apply Names; eauto. }
    cbn [obnd]. eauto. }
  clear -One W. induction fs as [|f t IH]; [exists []; reflexivity|]. inversion W; subst. cbn [alter_fragments]. destruct (One f (or_introl eq_refl) H1) as [g ->]. cbn [obnd].
  destruct IH as [r ->]; auto. { intros x X. apply One. right. exact X. } cbn [obnd]. eauto.
Qed.

(* ---- examples and refutations ---- *)
Definition fld (n : string) (i p : Z) (ty : string) (b : bool) (m : smap) (c : list rfield) : rfield :=
  RF {| a_name := n; a_id := i; a_parent := p; a_type := ty; a_meta := m; a_enc := None; a_null := b; a_dict := None; a_storage := SDefault |} c.
Definition ty_of (ty : string) : rfield := fld "" (-1) (-1) ty true [] [].
Definition any_cast : rfield -> rfield -> bool := fun _ _ => true.
Definition keep_value (x n : rfield) (v : option Z) : option (option Z) := Some v.
Definition isn (v : option Z) : bool := match v with None => true | _ => false end.
Definition ex_old : list rfield :=
  [fld "a" 0 (-1) "int32" false [("unit", "m")%string] []; fld "b" 1 (-1) "int32" true [] [];
   fld "s" 2 (-1) "struct" true [] [fld "x" 3 2 "int32" true [] []; fld "y" 4 2 "int32" true [] []]].
Definition ex_file : afile (option Z) := {| fi_ids := [0; 1; 2; 3; 4]%Z; fi_col := fun i o => if (i =? 1)%Z then None else Some (10 * i + Z.of_nat o)%Z |}.
Definition ex_cfrag : cfrag (option Z) := {| cf_id := 0; cf_phys := 3; cf_del := DSet [1]%N; cf_files := [ex_file] |}.
Definition alt (p : list string) (r : option string) (t : option string) : alteration :=
  {| al_path := p; al_rename := r; al_null := None; al_type := omap ty_of t |}.
Lemma ex_old_ids : r_field_ids ex_old = [0; 1; 2; 3; 4]%Z.
Proof. reflexivity. Qed.
Lemma ty_unset : forall t, unset (ty_of t).
Proof. intros t i [<-|[]]. reflexivity. Qed.
Lemma alt_unset : forall als, Forall (fun al => exists p r t, al = alt p r t) als -> forall al t, In al als -> al_type al = Some t -> unset t.
Proof.
  intros als H al t I E. rewrite Forall_forall in H. destruct (H al I) as (p & r & [ty|] & ->); cbn in E; [|discriminate]. injection E as <-. apply ty_unset.
Qed.
Lemma ex_cfrag_ok : Forall cfrag_ok [ex_cfrag].
Proof.
  constructor; [|constructor]. split; [cbn; constructor; [intros []|constructor]|]. intros x [<-|[]]. reflexivity.
Qed.
(* swapping two names, then casting one of them *)
Example ex_altered : exists g,
  alter_columns None isn keep_value any_cast (ex_u 2) ex_old [ex_cfrag] [alt ["a"%string] (Some "b"%string) None; alt ["b"%string] (Some "a"%string) (Some "int64"%string); alt ["s"%string; "x"%string] (Some "z"%string) None] =
    Ok ([fld "b" 0 (-1) "int32" false [("unit", "m")%string] []; fld "a" 5 (-1) "int64" true [] [];
         fld "s" 2 (-1) "struct" true [] [fld "z" 3 2 "int32" true [] []; fld "y" 4 2 "int32" true [] []]], [g]) /\
  cf_del g = DSet [1]%N /\ map (fun x => fi_ids x) (cf_files g) = [[0; 1; 2; 3; 4]; [5]]%Z /\ column None g 0 2 = Some 2%Z /\ column None g 5 2 = None.
Proof. eexists. split; [vm_compute; reflexivity|]. repeat split; vm_compute; reflexivity. Qed.
Definition ok_args (fs : list (cfrag (option Z))) (old : list rfield) (als : list alteration) : Prop :=
  NoDup (r_field_ids old) /\ NoDup (map r_name old) /\ (forall al t, In al als -> al_type al = Some t -> unset t) /\ Forall cfrag_ok fs /\
  Forall (allowed any_cast old) als /\ (forall f, In f fs -> exists o, o < 2 /\ row_live f o).
Lemma ex_args : forall als, Forall (fun al => exists p r t, al = alt p r t) als -> Forall (fun al => exists f, field_at ex_old (al_path al) = Some f) als -> ok_args [ex_cfrag] ex_old als.
Proof.
  intros als A F. split; [|split; [|split; [|split; [|split]]]].
  - rewrite ex_old_ids. repeat (constructor; [cbn; intuition discriminate|]). constructor.
  - cbn. repeat (constructor; [cbn; intuition discriminate|]). constructor.
  - apply alt_unset. exact A.
  - exact ex_cfrag_ok.
  - rewrite Forall_forall in *. intros al I. destruct (F al I) as [f E]. exists f. split; [exact E|]. destruct (A al I) as (p & r & t & ->). split.
    + pose proof (field_at_in _ _ _ E) as J. cbn in J. decompose [or] J; subst; try reflexivity. contradiction.
    + split; [discriminate|reflexivity].
  - intros f [<-|[]]. exists 0. split; [lia|]. split; [cbn; lia|]. intros [E|[]]. discriminate.
Qed.
(* a change of type followed by another alteration of the same column: panic *)
Theorem alter_twice_refuted : exists als, ok_args [ex_cfrag] ex_old als /\ alter_columns None isn keep_value any_cast (ex_u 2) ex_old [ex_cfrag] als = Panic.
Proof.
  exists [alt ["b"%string] None (Some "int64"%string); alt ["b"%string] (Some "c"%string) None]. split; [|vm_compute; reflexivity].
  apply ex_args; repeat (apply Forall_cons; [eauto; eexists; reflexivity|]); apply Forall_nil.
Qed.
(* a change of type inside a struct: panic *)
Theorem alter_nested_refuted : exists als, ok_args [ex_cfrag] ex_old als /\ alter_columns None isn keep_value any_cast (ex_u 2) ex_old [ex_cfrag] als = Panic.
Proof.
  exists [alt ["s"%string; "x"%string] None (Some "int64"%string)]. split; [|vm_compute; reflexivity].
  apply ex_args; repeat (apply Forall_cons; [eauto; eexists; reflexivity|]); apply Forall_nil.
Qed.
(* two children of a struct get the same name *)
Theorem alter_siblings_refuted : exists als new gs s, ok_args [ex_cfrag] ex_old als /\
  alter_columns None isn keep_value any_cast (ex_u 2) ex_old [ex_cfrag] als = Ok (new, gs) /\ In s new /\ ~ NoDup (map r_name (r_children s)).
Proof.
  exists [alt ["s"%string; "x"%string] (Some "y"%string) None]. do 3 eexists. split; [|split; [vm_compute; reflexivity|split; [right; right; left; reflexivity|]]].
  - apply ex_args; repeat (apply Forall_cons; [eauto; eexists; reflexivity|]); apply Forall_nil.
  - intros H. inversion H as [|? ? N _]; subst. apply N. left. reflexivity.
Qed.
(* two changes of type: whether they go through depends on the order in which they are asked for *)
Theorem alter_order_refuted : exists x y new gs, ok_args [ex_cfrag] ex_old [x; y] /\
  alter_columns None isn keep_value any_cast (ex_u 2) ex_old [ex_cfrag] [x; y] = Ok (new, gs) /\
  alter_columns None isn keep_value any_cast (ex_u 2) ex_old [ex_cfrag] [y; x] = Err.
Proof.
  exists (alt ["a"%string] None (Some "int64"%string)), (alt ["b"%string] None (Some "int64"%string)). do 2 eexists. split; [|split; vm_compute; reflexivity].
  apply ex_args; repeat (apply Forall_cons; [eauto; eexists; reflexivity|]); apply Forall_nil.
Qed.
(* a change of type loses the metadata of the column *)
Theorem alter_metadata_refuted : exists als new gs x n, ok_args [ex_cfrag] ex_old als /\
  alter_columns None isn keep_value any_cast (ex_u 2) ex_old [ex_cfrag] als = Ok (new, gs) /\
  nth_error ex_old 0 = Some x /\ nth_error new 0 = Some n /\ a_meta (r_attrs x) <> [] /\ a_meta (r_attrs n) = [].
Proof.
  exists [alt ["a"%string] None (Some "int64"%string)]. do 4 eexists. split; [|split; [vm_compute; reflexivity|split; [reflexivity|split; [reflexivity|split; [discriminate|reflexivity]]]]].
  apply ex_args; repeat (apply Forall_cons; [eauto; eexists; reflexivity|]); apply Forall_nil.
Qed.
