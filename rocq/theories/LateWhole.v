(* Theorems about fetching further columns by row id (C137). *)
From Coq Require Import String List Bool ZArith Lia.
From Verif Require Import LateModel LateProofs.
Import ListNotations.
Local Open Scope Z_scope.

Section Late.
  Context {D : Type}.
  Notation tree := (@tree D).
  Variable no_nulls : D.
  (* the columns of the input: for each, either the part of a column of the dataset chosen by a set of ids, or one the dataset does not have *)
  Definition input_of (full : list tree) (a : Z -> bool) (input : list tree) : Prop :=
    NoDup (map t_name input) /\
    (forall f, In f input -> (exists t, In t full /\ keep a t = [f]) \/ ~ In (t_name f) (map t_name full)) /\
    (forall t, In t full -> keep a t <> [] -> In (t_name t) (map t_name input)).
  (* the columns of the dataset: distinct names and ids *)
  Definition dataset (full : list tree) : Prop := NoDup (map t_name full) /\ NoDup (map t_id full) /\ (forall t, In t full -> proper t).

  Section One.
    Variables (full : list tree) (ids : list Z) (a : Z -> bool) (input : list tree).
    Hypothesis Hd : dataset full.
    Hypothesis Hi : input_of full a input.
    Hypothesis Hp : forall t, In t full -> closed (fun i => memz i ids) t.
    Hypothesis Ha : forall t, In t full -> closed a t.
    Let p := fun i => memz i ids.
    Let q := fun i => p i && negb (a i).
    Let u := fun i => a i || q i.
    Definition is_new (t : tree) : bool := match lookup (t_name t) input with None => true | Some _ => false end.

    Lemma in_full f t : In f input -> lookup (t_name f) full = Some t -> In t full /\ keep a t = [f] /\ t_name f = t_name t.
    Proof.
      destruct Hd as (N1&N2&Pr). destruct Hi as (I1&I2&I3). intros Hf L. destruct (I2 f Hf) as [(t'&Ht&K)|N]; [|apply lookup_none in N; congruence].
      destruct (keep_some _ _ _ K) as [E _]. rewrite E, (lookup_unique full t' N1 Ht) in L. injection L as ->. auto.
    Qed.
    Lemma in_input t : In t full -> lookup (t_name t) input = head (keep a t).
    Proof.
      destruct Hd as (N1&N2&Pr). destruct Hi as (I1&I2&I3). intros Ht. destruct (keep_one a t) as [E|(f&E&Ef&_)]; rewrite E; cbn [head].
      - apply lookup_none. intros Hn. apply in_map_iff in Hn. destruct Hn as (f&Ef&Hf). assert (L : lookup (t_name f) full = Some t) by (rewrite Ef; apply lookup_unique; auto). destruct (in_full f t Hf L) as (_&K&_). congruence.
      - assert (Hn : In (t_name t) (map t_name input)) by (apply I3; [exact Ht|rewrite E; discriminate]). apply in_map_iff in Hn. destruct Hn as (f'&Ef'&Hf').
        assert (L : lookup (t_name f') full = Some t) by (rewrite Ef'; apply lookup_unique; auto). destruct (in_full f' t Hf' L) as (_&K&_). rewrite E in K. injection K as <-. rewrite <- Ef'. apply lookup_unique; auto.
    Qed.
    Lemma by_schema_input l : incl l input -> by_schema full l = Some (flat_map (fun f => match lookup (t_name f) full with Some _ => [f] | None => [] end) l).
    Proof.
      destruct Hd as (N1&N2&Pr). induction l as [|f l IH]; intros Hl; [reflexivity|]. cbn. rewrite IH; [|intros z Hz; apply Hl; right; exact Hz]. destruct (lookup (t_name f) full) as [t|] eqn:L; [|reflexivity].
      destruct (in_full f t (Hl f (or_introl eq_refl)) L) as (Ht&K&_). rewrite (by_field_keep a t f (Pr t Ht) K). reflexivity.
    Qed.
    Lemma subtract_input : exists ids', subtract full ids input = Some ids' /\ forall t i, In t full -> In i (ids_of t) -> memz i ids' = q i.
    Proof.
      unfold subtract. rewrite by_schema_input by apply incl_refl. eexists. split; [reflexivity|]. intros t i Ht Hit. set (o := flat_map ids_of _).
      assert (E : memz i o = a i).
      { apply eq_true_iff_eq. rewrite memz_in. unfold o. split.
        - intros H. apply in_flat_map in H. destruct H as (f&Hf&Hfi). apply in_flat_map in Hf. destruct Hf as (f'&Hf'&Hff). destruct (lookup (t_name f') full) as [t'|] eqn:L; [|destruct Hff]. destruct Hff as [->|[]].
          destruct (in_full f t' Hf' L) as (Ht'&K&_). assert (C := closed_ids a t' (Ha t' Ht') i). rewrite K in C. cbn in C. rewrite app_nil_r in C. apply C, Hfi.
        - intros H. pose proof (proj2 (closed_ids a t (Ha t Ht) i) (conj Hit H)) as K. pose proof (in_input t Ht) as L. destruct (keep_one a t) as [E|(f&E&Ef&_)]; rewrite E in *; [destruct K|]. cbn in K. rewrite app_nil_r in K. cbn in L.
          assert (Hf : In f input) by (eapply find_some; exact L). apply in_flat_map. exists f. split; [|exact K]. apply in_flat_map. exists f. split; [exact Hf|]. destruct Hd as (N1&_). rewrite Ef, (lookup_unique full t N1 Ht). left. reflexivity. }
      apply eq_true_iff_eq. rewrite memz_in, filter_In, <- memz_in. unfold q. rewrite andb_true_iff, E. reflexivity.
    Qed.

    Section Ids.
      Variable ids' : list Z.
      Hypothesis Hids : forall t i, In t full -> In i (ids_of t) -> memz i ids' = q i.
      Lemma old_fields_input l : incl l input -> old_fields full ids' l = Some (flat_map (fun f => match lookup (t_name f) full with Some t => keep u t | None => [f] end) l).
      Proof.
        destruct Hd as (N1&N2&Pr). induction l as [|f l IH]; intros Hl; [reflexivity|]. cbn. rewrite IH; [|intros z Hz; apply Hl; right; exact Hz]. destruct (lookup (t_name f) full) as [t|] eqn:L; [|reflexivity].
        destruct (in_full f t (Hl f (or_introl eq_refl)) L) as (Ht&K&_). rewrite (apply_projection_keep p a ids' t (Hp t Ht) (Ha t Ht)) by (intros i Hit; apply (Hids t i Ht Hit)). fold q.
        destruct (keep_one q t) as [E|(g&E&_)].
        - rewrite E. unfold u. rewrite (keep_or a q t E), K. reflexivity.
        - rewrite E. unfold u. rewrite (merge_ref_keep a q t f g (Pr t Ht) K E). reflexivity.
      Qed.
      Lemma added_spec t : In t full -> memz (t_id t) (flat_map (fun f => match lookup (t_name f) full with Some df => [t_id df] | None => [] end) input) = negb (is_new t).
      Proof.
        destruct Hd as (N1&N2&Pr). intros Ht. apply eq_true_iff_eq. rewrite memz_in, in_flat_map. unfold is_new. split.
        - intros (f&Hf&Hfi). destruct (lookup (t_name f) full) as [t'|] eqn:L; [|destruct Hfi]. destruct Hfi as [E|[]]. destruct (in_full f t' Hf L) as (Ht'&K&En).
          assert (t' = t). { clear -N2 E Ht Ht'. induction full as [|x l IH]; [destruct Ht|]. cbn in N2. inversion N2 as [|? ? M1 M2]; subst. destruct Ht as [->|Ht], Ht' as [->|Ht']; auto; destruct M1; [rewrite <- E|rewrite E]; apply in_map; assumption. }
          subst t'. destruct (lookup (t_name t) input) eqn:L'; [reflexivity|]. apply lookup_none in L'. destruct L'. rewrite <- En. apply in_map, Hf.
        - destruct (lookup (t_name t) input) as [f|] eqn:L; [|discriminate]. intros _. apply find_some in L. destruct L as [Hf E]. apply String.eqb_eq in E. exists f. split; [exact Hf|]. rewrite E, (lookup_unique full t N1 Ht). left. reflexivity.
      Qed.
      Lemma output_schema_input : output_schema full ids' input = Some (flat_map (fun f => match lookup (t_name f) full with Some t => keep u t | None => [f] end) input ++ flat_map (keep q) (filter is_new full)).
      Proof.
        unfold output_schema. rewrite old_fields_input by apply incl_refl. cbn [option_map]. do 2 f_equal.
        set (added := flat_map _ input). assert (G : forall l, incl l full -> filter (fun f => negb (memz (t_id f) added)) (flat_map (by_ids ids') l) = flat_map (keep q) (filter is_new l)); [|apply G, incl_refl].
        induction l as [|t l IH]; intros Hl; [reflexivity|]. assert (Ht : In t full) by (apply Hl; left; reflexivity). cbn [flat_map]. rewrite filter_app, IH; [|intros z Hz; apply Hl; right; exact Hz].
        rewrite (by_ids_keep p a ids' t (Hp t Ht) (Ha t Ht)) by (intros i Hit; apply (Hids t i Ht Hit)). fold q. cbn [filter]. pose proof (added_spec t Ht) as As. fold added in As.
        destruct (keep_one q t) as [E|(g&E&_&_&Eg)]; rewrite E.
        - cbn. destruct (is_new t); cbn; rewrite ?E; reflexivity.
        - cbn. rewrite Eg, As, negb_involutive. destruct (is_new t); cbn; rewrite ?E; reflexivity.
      Qed.
      Lemma right_columns : flat_map (by_ids ids') full = flat_map (keep q) full.
      Proof. apply flat_map_ext_in'. intros t Ht. rewrite (by_ids_keep p a ids' t (Hp t Ht) (Ha t Ht)) by (intros i Hit; apply (Hids t i Ht Hit)). reflexivity. Qed.
      Lemma new_spec t : In t full -> is_new t = true -> keep a t = [].
      Proof. intros Ht. unfold is_new. rewrite (in_input t Ht). destruct (keep a t); [reflexivity|discriminate]. Qed.
      Lemma merge_input fields : output_schema full ids' input = Some fields ->
        merge_with_schema no_nulls input (flat_map (by_ids ids') full) fields =
        flat_map (fun f => match lookup (t_name f) full with Some t => merged no_nulls a q t | None => [f] end) input ++ flat_map (keep q) (filter is_new full).
      Proof.
        destruct Hd as (N1&N2&Pr). destruct Hi as (I1&I2&I3). rewrite output_schema_input. intros E. injection E as <-. rewrite right_columns. unfold merge_with_schema. rewrite flat_map_app. f_equal.
        - assert (G : forall l, incl l input -> flat_map (fun f => merge_field no_nulls f input (flat_map (keep q) full)) (flat_map (fun f => match lookup (t_name f) full with Some t => keep u t | None => [f] end) l) = flat_map (fun f => match lookup (t_name f) full with Some t => merged no_nulls a q t | None => [f] end) l); [|apply G, incl_refl].
          induction l as [|f l IH]; intros Hl; [reflexivity|]. assert (Hf : In f input) by (apply Hl; left; reflexivity). cbn [flat_map]. rewrite flat_map_app, IH; [|intros z Hz; apply Hl; right; exact Hz]. f_equal.
          destruct (lookup (t_name f) full) as [t|] eqn:L.
          + destruct (in_full f t Hf L) as (Ht&K&_). destruct (keep_one u t) as [E|(v&E&_)].
            * unfold u in E. apply keep_or_nil in E. destruct E. congruence.
            * rewrite E. cbn. rewrite app_nil_r. apply merge_field_keep; [apply Pr, Ht|exact E|apply in_input, Ht|]. rewrite keep_lookup; auto.
          + cbn. rewrite app_nil_r. destruct f as [n i k d c]. cbn [merge_field].
            assert (L1 : lookup n input = Some (T n i k d c)) by apply (lookup_unique input (T n i k d c) I1 Hf).
            assert (L2 : lookup n (flat_map (keep q) full) = None).
            { apply lookup_none. intros H. apply lookup_none in L. apply L. cbn [t_name]. apply in_map_iff in H. destruct H as (g&Eg&Hg). apply keep_in in Hg. destruct Hg as (t&Ht&Hg). destruct (keep_some _ _ _ Hg) as [E _]. rewrite <- Eg, E. apply in_map, Ht. }
            rewrite !matching_lookup; cbn [t_name]; [rewrite L1, L2; reflexivity| |]; intros g; [rewrite L2; discriminate|]. rewrite L1. intros E. injection E as <-. reflexivity.
        - assert (G : forall l, incl l (filter is_new full) -> flat_map (fun f => merge_field no_nulls f input (flat_map (keep q) full)) (flat_map (keep q) l) = flat_map (keep q) l); [|apply G, incl_refl].
          induction l as [|t l IH]; intros Hl; [reflexivity|]. pose proof (Hl t (or_introl eq_refl)) as Ht. apply filter_In in Ht. destruct Ht as [Ht Hn]. cbn [flat_map]. rewrite flat_map_app, IH; [|intros z Hz; apply Hl; right; exact Hz]. f_equal.
          pose proof (new_spec t Ht Hn) as Ka. destruct (keep_one q t) as [E|(v&E&_)]; rewrite E; [reflexivity|]. cbn. rewrite app_nil_r. rewrite (merge_field_keep no_nulls a q t v).
          + destruct t; rewrite merged_eq, Ka. exact E.
          + apply Pr, Ht.
          + rewrite (keep_or' a q t Ka). exact E.
          + apply in_input, Ht.
          + rewrite keep_lookup; auto.
      Qed.
    End Ids.
    Lemma keep_new (t : tree) : In t full -> is_new t = true -> keep q t = keep p t.
    Proof.
      intros Ht Hn. pose proof (new_spec t Ht Hn) as Ka. apply keep_ext. intros i Hit. unfold q. destruct (a i) eqn:E; [|now rewrite andb_true_r].
      pose proof (proj2 (closed_ids a t (Ha t Ht) i) (conj Hit E)) as K. rewrite Ka in K. destruct K.
    Qed.
    Lemma keep_u (t : tree) : keep u t = keep (fun i => a i || p i) t.
    Proof. apply keep_ext. intros i _. unfold u, q. destruct (a i), (p i); reflexivity. Qed.
    Lemma keep_false (t : tree) : (forall i, In i (ids_of t) -> q i = false) -> keep q t = [].
    Proof.
      intros H. rewrite (keep_ext q (fun _ => false) t H). clear H. induction t as [n i k d c IH] using tree_ind'. rewrite Forall_forall in IH. rewrite keep_eq. assert (E : flat_map (keep (fun _ => false)) c = []) by (apply flat_map_nil; exact IH). rewrite E. destruct c; reflexivity.
    Qed.
    Lemma new_columns : flat_map (keep q) (filter is_new full) = flat_map (keep p) (filter is_new full).
    Proof. apply flat_map_ext_in'. intros t Ht. apply filter_In in Ht. destruct Ht. apply keep_new; auto. Qed.

    Lemma take_both : In "_rowid"%string (map t_name input) ->
      take_exec no_nulls full ids input = Some (flat_map (fun f => match lookup (t_name f) full with Some t => merged no_nulls a q t | None => [f] end) input ++ flat_map (keep p) (filter is_new full)) /\
      take_schema full ids input = Some (flat_map (fun f => match lookup (t_name f) full with Some t => keep (fun i => a i || p i) t | None => [f] end) input ++ flat_map (keep p) (filter is_new full)).
    Proof.
      intros Hr. destruct subtract_input as (ids'&Es&Hids). unfold take_exec, take_schema. rewrite Es. rewrite <- new_columns.
      assert (Su : flat_map (fun f => match lookup (t_name f) full with Some t => keep u t | None => [f] end) input = flat_map (fun f => match lookup (t_name f) full with Some t => keep (fun i => a i || p i) t | None => [f] end) input).
      { apply flat_map_ext_in'. intros f _. destruct (lookup (t_name f) full); [apply keep_u|reflexivity]. }
      destruct ids' as [|i0 ids0] eqn:Ei.
      - assert (Kq : forall t, In t full -> keep q t = []). { intros t Ht. apply keep_false. intros i Hit. rewrite <- (Hids t i Ht Hit). reflexivity. }
        assert (Kn : flat_map (keep q) (filter is_new full) = []). { apply flat_map_nil. intros t Ht. apply filter_In in Ht. apply Kq, Ht. }
        rewrite Kn, !app_nil_r, <- Su. assert (G : forall l, incl l input -> flat_map (fun f => match lookup (t_name f) full with Some t => merged no_nulls a q t | None => [f] end) l = l /\ flat_map (fun f => match lookup (t_name f) full with Some t => keep u t | None => [f] end) l = l).
        { induction l as [|f l IH]; intros Hl; [auto|]. cbn [flat_map]. destruct IH as [IH1 IH2]; [intros z Hz; apply Hl; right; exact Hz|]. rewrite IH1, IH2. destruct (lookup (t_name f) full) as [t|] eqn:L; [|auto].
          destruct (in_full f t (Hl f (or_introl eq_refl)) L) as (Ht&K&_). unfold u. rewrite (keep_or a q t (Kq t Ht)), K. destruct t; rewrite merged_eq, K, (Kq _ Ht). auto. }
        destruct (G input (incl_refl _)) as [G1 G2]. rewrite G1, G2. auto.
      - assert (Lr : exists r, lookup "_rowid" input = Some r). { destruct (lookup "_rowid" input) eqn:L; [eauto|]. apply lookup_none in L. contradiction. } destruct Lr as [r ->].
        pose proof (output_schema_input (i0 :: ids0) Hids) as Eo. rewrite Eo. split; [|rewrite Su; reflexivity]. cbn [option_map]. f_equal. apply (merge_input (i0 :: ids0) Hids), Eo.
    Qed.
  End One.

  (* lists are either taken from the input or fetched *)
  Inductive lists_whole (p q : Z -> bool) : tree -> Prop :=
  | lists_whole_T n i k d c : (k = KList -> keep p (T n i k d c) = [] \/ keep q (T n i k d c) = []) -> (forall x, In x c -> lists_whole p q x) -> lists_whole p q (T n i k d c).
  (* no struct is null *)
  Inductive structs_valid : tree -> Prop :=
  | structs_valid_T n i k d c : (k = KStruct -> d = no_nulls) -> (forall x, In x c -> structs_valid x) -> structs_valid (T n i k d c).
  (* a column without the nulls of its structs *)
  Fixpoint blank (t : tree) : tree := match t with T n i k d c => T n i k (match k with KStruct => no_nulls | _ => d end) (map blank c) end.

  Lemma map_flat_map {A B C} (g : B -> C) (f : A -> list B) l : map g (flat_map f l) = flat_map (fun x => map g (f x)) l.
  Proof. induction l as [|x l IH]; cbn; [reflexivity|]. now rewrite map_app, IH. Qed.
  Lemma merged_blank p q t : proper t -> lists_whole p q t -> map blank (merged no_nulls p q t) = map blank (keep (fun i => p i || q i) t).
  Proof.
    induction t as [n i k d c IH] using tree_ind'. rewrite Forall_forall in IH. intros Hp Hl. inversion Hp as [? ? ? ? ? Nd Hs Hk]; subst. inversion Hl as [? ? ? ? ? Hl1 Hl2]; subst. rewrite merged_eq.
    destruct (keep_one p (T n i k d c)) as [Ep|(f&Ep&_)]; [rewrite Ep, (keep_or' _ _ _ Ep); reflexivity|]. destruct (keep_one q (T n i k d c)) as [Eq|(g&Eq&_)]; [rewrite Eq, (keep_or _ _ _ Eq), Ep; reflexivity|].
    destruct k.
    - rewrite Ep, Eq. subst c. cbn in *. destruct (p i); [|discriminate]. cbn. injection Ep as <-. reflexivity.
    - rewrite Ep, Eq. assert (Eu : keep (fun i => p i || q i) (T n i KStruct d c) = [T n i KStruct d (flat_map (keep (fun i => p i || q i)) c)]).
      { rewrite (merge_ref_keep p q _ f g Hp Ep Eq). pose proof (keep_kids _ _ _ _ _ _ _ (merge_ref_keep p q _ f g Hp Ep Eq)) as K.
        destruct (merge_ref (T n i KStruct d c) f g) as [n' i' k' d' c'] eqn:E. assert (E' := merge_ref_keep p q _ f g Hp Ep Eq). rewrite E, keep_eq in E'. cbn in K. subst c'. f_equal.
        destruct (flat_map (keep (fun i => p i || q i)) c); [destruct c; [destruct (p i || q i)|]; congruence|congruence]. }
      rewrite Eu. cbn. do 2 f_equal. rewrite !map_flat_map. apply flat_map_ext_in'. intros x Hx. apply IH; auto.
    - destruct (Hl1 eq_refl); congruence.
  Qed.
  Lemma blank_valid t : structs_valid t -> blank t = t.
  Proof.
    induction t as [n i k d c IH] using tree_ind'. rewrite Forall_forall in IH. intros H. inversion H as [? ? ? ? ? H1 H2]; subst. cbn. f_equal; [destruct k; auto; symmetry; auto|]. rewrite <- (map_id c) at 2. apply map_ext_in. auto.
  Qed.
  Lemma keep_valid p t f : structs_valid t -> In f (keep p t) -> structs_valid f.
  Proof.
    revert f. induction t as [n i k d c IH] using tree_ind'. rewrite Forall_forall in IH. intros f H Hf. inversion H as [? ? ? ? ? H1 H2]; subst. rewrite keep_eq in Hf.
    assert (F : forall x, In x (flat_map (keep p) c) -> structs_valid x) by (intros x Hx; apply in_flat_map in Hx; destruct Hx as (y&Hy&Hx); eapply IH; eauto).
    destruct (flat_map (keep p) c) eqn:E; [destruct c; [destruct (p i)|]; try destruct Hf as [<-|[]]; try destruct Hf; exact H|]. destruct Hf as [<-|[]]. constructor; auto.
  Qed.
  Lemma merged_valid p q t f : structs_valid t -> In f (merged no_nulls p q t) -> structs_valid f.
  Proof.
    revert f. induction t as [n i k d c IH] using tree_ind'. rewrite Forall_forall in IH. intros f H Hf. pose proof (keep_valid p _ f H) as K1. pose proof (keep_valid q _ f H) as K2. inversion H as [? ? ? ? ? H1 H2]; subst. rewrite merged_eq in Hf.
    destruct (keep p (T n i k d c)); [auto|]. destruct (keep q (T n i k d c)); [auto|]. destruct k; auto. destruct Hf as [<-|[]]. constructor; [reflexivity|]. intros x Hx. apply in_flat_map in Hx. destruct Hx as (y&Hy&Hx). eapply IH; eauto.
  Qed.
End Late.

(* the columns that should come out: those of the input, completed, then the new ones in the order of the dataset *)
Definition wanted {D} (full : list (@tree D)) (ids : list Z) (a : Z -> bool) (input : list tree) : list tree :=
  flat_map (fun f => match find (fun t => String.eqb (t_name t) (t_name f)) full with Some t => keep (fun i => a i || existsb (Z.eqb i) ids) t | None => [f] end) input ++
  flat_map (keep (fun i => existsb (Z.eqb i) ids)) (filter (fun t => negb (existsb (fun f => String.eqb (t_name f) (t_name t)) input)) full).

Lemma is_new_eq {D} (input : list (@tree D)) t : is_new input t = negb (existsb (fun f => String.eqb (t_name f) (t_name t)) input).
Proof. unfold is_new, lookup. induction input as [|f l IH]; cbn; [reflexivity|]. destruct (String.eqb (t_name f) (t_name t)); [reflexivity|exact IH]. Qed.

(* the node announces the right columns, and delivers them, up to the nulls of structs *)
Theorem take_columns {D} (no_nulls : D) full ids a input : dataset full -> input_of full a input ->
  (forall t, In t full -> closed (fun i => existsb (Z.eqb i) ids) t) -> (forall t, In t full -> closed a t) -> In "_rowid"%string (map t_name input) ->
  take_schema full ids input = Some (wanted full ids a input) /\
  ((forall t, In t full -> lists_whole a (fun i => existsb (Z.eqb i) ids && negb (a i)) t) ->
   exists out, take_exec no_nulls full ids input = Some out /\ map (blank no_nulls) out = map (blank no_nulls) (wanted full ids a input)).
Proof.
  intros Hd Hi Hp Ha Hr. destruct (take_both no_nulls full ids a input Hd Hi Hp Ha Hr) as [T1 T2].
  assert (W : wanted full ids a input = flat_map (fun f => match lookup (t_name f) full with Some t => keep (fun i => a i || memz i ids) t | None => [f] end) input ++ flat_map (keep (fun i => memz i ids)) (filter (is_new input) full)).
  { unfold wanted. f_equal. f_equal. apply filter_ext. intros t. symmetry. apply is_new_eq. }
  split; [rewrite W; exact T2|]. intros Hl. eexists. split; [exact T1|]. rewrite W, !map_app. f_equal. rewrite !map_flat_map. apply flat_map_ext_in'. intros f Hf. destruct (lookup (t_name f) full) as [t|] eqn:L; [|reflexivity].
  destruct (in_full full a input Hd Hi f t Hf L) as (Ht&_). destruct Hd as (_&_&Pr). unfold memz. rewrite (merged_blank no_nulls a _ t (Pr t Ht) (Hl t Ht)). f_equal. apply keep_ext. intros i _. destruct (a i), (existsb (Z.eqb i) ids); reflexivity.
Qed.
(* if no struct is null it delivers exactly those *)
Theorem take_columns_exact {D} (no_nulls : D) full ids a input : dataset full -> input_of full a input ->
  (forall t, In t full -> closed (fun i => existsb (Z.eqb i) ids) t) -> (forall t, In t full -> closed a t) -> In "_rowid"%string (map t_name input) ->
  (forall t, In t full -> lists_whole a (fun i => existsb (Z.eqb i) ids && negb (a i)) t) -> (forall t, In t full -> structs_valid no_nulls t) ->
  take_exec no_nulls full ids input = Some (wanted full ids a input).
Proof.
  intros Hd Hi Hp Ha Hr Hl Hv. destruct (take_both no_nulls full ids a input Hd Hi Hp Ha Hr) as [T1 T2].
  assert (W : wanted full ids a input = flat_map (fun f => match lookup (t_name f) full with Some t => keep (fun i => a i || memz i ids) t | None => [f] end) input ++ flat_map (keep (fun i => memz i ids)) (filter (is_new input) full)).
  { unfold wanted. f_equal. f_equal. apply filter_ext. intros t. symmetry. apply is_new_eq. }
  rewrite T1, W. f_equal. f_equal. apply flat_map_ext_in'. intros f Hf. destruct (lookup (t_name f) full) as [t|] eqn:L; [|reflexivity].
  destruct (in_full full a input Hd Hi f t Hf L) as (Ht&_). destruct Hd as (_&_&Pr).
  assert (E := merged_blank no_nulls a _ t (Pr t Ht) (Hl t Ht)).
  rewrite (map_ext_in _ (fun x => x)), map_id in E by (intros x Hx; apply blank_valid; eapply merged_valid; [apply Hv, Ht|exact Hx]).
  rewrite (map_ext_in _ (fun x => x)), map_id in E by (intros x Hx; apply blank_valid; eapply keep_valid; [apply Hv, Ht|exact Hx]).
  unfold memz. rewrite E. apply keep_ext. intros i _. destruct (a i), (existsb (Z.eqb i) ids); reflexivity.
Qed.
