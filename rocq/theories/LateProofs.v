(* Fetching further columns by row id (C137). *)
From Coq Require Import String List Bool ZArith Lia.
From Verif Require Import LateModel.
Import ListNotations.
Local Open Scope Z_scope.

Section Late.
  Context {D : Type}.
  Notation tree := (@tree D).
  Fixpoint tree_ind' (P : tree -> Prop) (H : forall n i k d c, Forall P c -> P (T n i k d c)) (t : tree) : P t :=
    match t with T n i k d c => H n i k d c ((fix go (l : list tree) : Forall P l := match l with [] => Forall_nil P | x :: l' => Forall_cons x (tree_ind' P H x) (go l') end) c) end.

  (* the part of a field whose leaves are chosen *)
  Fixpoint keep (p : Z -> bool) (t : tree) : list tree :=
    match t with T n i k d c =>
      match c with
      | [] => if p i then [T n i k d c] else []
      | _ => match flat_map (keep p) c with [] => [] | c' => [T n i k d c'] end
      end
    end.
  (* a set of ids that holds a field with children exactly when it holds one of the children *)
  Inductive closed (p : Z -> bool) : tree -> Prop :=
  | closed_T n i k d c : (c = [] \/ p i = existsb (fun x => p (t_id x)) c) -> (forall x, In x c -> closed p x) -> closed p (T n i k d c).
  (* fields as they are in a dataset *)
  Inductive proper : tree -> Prop :=
  | proper_T n i k d c : NoDup (map t_name c) -> match k with KLeaf => c = [] | KStruct => True | KList => exists x, c = [x] end -> (forall x, In x c -> proper x) -> proper (T n i k d c).

  Lemma keep_one p t : keep p t = [] \/ exists f, keep p t = [f] /\ t_name f = t_name t /\ t_kind f = t_kind t /\ t_id f = t_id t.
  Proof.
    destruct t as [n i k d c]. cbn. destruct c as [|x c]; [destruct (p i); eauto 10|]. destruct (flat_map (keep p) (x :: c)) eqn:E; eauto 10.
  Qed.
  Lemma keep_some p t f : keep p t = [f] -> t_name f = t_name t /\ t_kind f = t_kind t /\ t_id f = t_id t.
  Proof. intros H. destruct (keep_one p t) as [E|(g&E&R)]; rewrite E in H; [discriminate|]. injection H as <-. exact R. Qed.
  Lemma keep_in p c f : In f (flat_map (keep p) c) -> exists t, In t c /\ keep p t = [f].
  Proof. intros H. apply in_flat_map in H. destruct H as (t&H1&H2). exists t. split; [exact H1|]. destruct (keep_one p t) as [E|(g&E&_)]; rewrite E in *; [destruct H2|]. destruct H2 as [->|[]]. reflexivity. Qed.
  Lemma keep_kids p n i k d c f : keep p (T n i k d c) = [f] -> t_kids f = flat_map (keep p) c.
  Proof.
    cbn. destruct c as [|x c]; [destruct (p i); [|discriminate]; intros E; injection E as <-; reflexivity|]. destruct (flat_map (keep p) (x :: c)) eqn:E; [discriminate|]. intros Q. injection Q as <-. reflexivity.
  Qed.
  Lemma keep_eq p n i k d c : keep p (T n i k d c) = match flat_map (keep p) c with [] => match c with [] => if p i then [T n i k d c] else [] | _ => [] end | c' => [T n i k d c'] end.
  Proof. destruct c; reflexivity. Qed.

  Lemma flat_map_ext_in' {A B} (f g : A -> list B) l : (forall x, In x l -> f x = g x) -> flat_map f l = flat_map g l.
  Proof. induction l as [|x l IH]; intros H; cbn; [reflexivity|]. rewrite H, IH; auto; [intros; apply H; right; assumption|left; reflexivity]. Qed.
  Lemma keep_ext p q t : (forall i, In i (ids_of t) -> p i = q i) -> keep p t = keep q t.
  Proof.
    induction t as [n i k d c IH] using tree_ind'. intros H. rewrite !keep_eq. rewrite Forall_forall in IH.
    assert (E : flat_map (keep p) c = flat_map (keep q) c).
    { apply flat_map_ext_in'. intros x Hx. apply IH; [exact Hx|]. intros j Hj. apply H. cbn. right. apply in_flat_map. eauto. }
    rewrite E, (H i (or_introl eq_refl)). reflexivity.
  Qed.
  Lemma flat_map_nil {A B} (f : A -> list B) l : flat_map f l = [] <-> forall x, In x l -> f x = [].
  Proof. induction l as [|y l IH]; cbn; [tauto|]. split; [intros H x [<-|Hx]; apply app_eq_nil in H; [tauto|]; apply IH; tauto|]. intros H. rewrite (H y (or_introl eq_refl)). cbn. apply IH. auto. Qed.
  Lemma keep_or p q t : keep q t = [] -> keep (fun i => p i || q i) t = keep p t.
  Proof.
    induction t as [n i k d c IH] using tree_ind'. rewrite Forall_forall in IH. rewrite !keep_eq. intros H.
    destruct c as [|x c]. { cbn in *. destruct (q i); [discriminate|]. now rewrite orb_false_r. }
    destruct (flat_map (keep q) (x :: c)) eqn:E; [|discriminate]. rewrite flat_map_nil in E.
    rewrite (flat_map_ext_in' (keep (fun i => p i || q i)) (keep p) (x :: c)); [reflexivity|]. intros y Hy. apply IH; auto.
  Qed.
  Lemma keep_or_nil p q t : keep (fun i => p i || q i) t = [] <-> keep p t = [] /\ keep q t = [].
  Proof.
    induction t as [n i k d c IH] using tree_ind'. rewrite Forall_forall in IH. rewrite !keep_eq. destruct c as [|x c].
    { cbn. destruct (p i), (q i); cbn; intuition discriminate. }
    assert (E : flat_map (keep (fun i => p i || q i)) (x :: c) = [] <-> flat_map (keep p) (x :: c) = [] /\ flat_map (keep q) (x :: c) = []).
    { rewrite !flat_map_nil. split; [intros H; split; intros y Hy; apply (IH y Hy), H, Hy|]. intros [H1 H2] y Hy. apply IH; auto. }
    destruct (flat_map (keep (fun i => p i || q i)) (x :: c)), (flat_map (keep p) (x :: c)), (flat_map (keep q) (x :: c)); intuition (try discriminate).
  Qed.

  Lemma closed_keep p t : closed p t -> (keep p t = [] <-> p (t_id t) = false).
  Proof.
    induction t as [n i k d c IH] using tree_ind'. rewrite Forall_forall in IH. intros H. inversion H as [? ? ? ? ? Hc Hk]; subst. rewrite keep_eq. cbn [t_id]. destruct c as [|x c].
    { cbn. destruct (p i); split; congruence. }
    destruct Hc as [Hc|Hc]; [discriminate|]. rewrite Hc. destruct (flat_map (keep p) (x :: c)) eqn:E.
    - split; [|reflexivity]. intros _. rewrite flat_map_nil in E. destruct (existsb _ _) eqn:Ee; [|reflexivity]. apply existsb_exists in Ee. destruct Ee as (y&Hy&Py). assert (p (t_id y) = false) by (apply IH; auto). congruence.
    - split; [discriminate|]. intros Q. assert (F : flat_map (keep p) (x :: c) = []); [|congruence]. apply flat_map_nil. intros y Hy. apply IH; auto. destruct (p (t_id y)) eqn:Ey; [|reflexivity].
      assert (existsb (fun x => p (t_id x)) (x :: c) = true) by (apply existsb_exists; eauto). congruence.
  Qed.
  (* what is chosen by a closed set has just ids of the set, and all those of the field *)
  Lemma closed_ids p t : closed p t -> forall i, In i (flat_map ids_of (keep p t)) <-> In i (ids_of t) /\ p i = true.
  Proof.
    induction t as [n j k d c IH] using tree_ind'. rewrite Forall_forall in IH. intros H i. pose proof (closed_keep p _ H) as K. inversion H as [? ? ? ? ? Hc Hk]; subst. cbn [t_id] in K.
    assert (E : In i (flat_map ids_of (flat_map (keep p) c)) <-> In i (flat_map ids_of c) /\ p i = true).
    { rewrite in_flat_map. split.
      - intros (f&Hf&Hi). apply keep_in in Hf. destruct Hf as (t&Ht&Hf). destruct (IH t Ht (Hk t Ht) i) as [I1 _]. rewrite Hf in I1. cbn in I1. rewrite app_nil_r in I1. destruct (I1 Hi). split; [|assumption]. apply in_flat_map. eauto.
      - intros [Hi Hp]. apply in_flat_map in Hi. destruct Hi as (t&Ht&Hi). destruct (IH t Ht (Hk t Ht) i) as [_ I2]. specialize (I2 (conj Hi Hp)). apply in_flat_map in I2. destruct I2 as (f&Hf&Hi'). exists f. split; [|exact Hi']. apply in_flat_map. eauto. }
    destruct (keep p (T n j k d c)) as [|f l] eqn:Ek.
    - cbn. split; [tauto|]. intros [[<-|Hi] Hp]; [destruct K as [K _]; rewrite (K eq_refl) in Hp; discriminate|]. 
      assert (F : flat_map (keep p) c = []). { rewrite keep_eq in Ek. destruct (flat_map (keep p) c); [reflexivity|discriminate]. } rewrite F in E. cbn in E. tauto.
    - assert (Pj : p j = true) by (destruct (p j) eqn:Ep; [reflexivity|]; destruct K as [_ K]; discriminate (K eq_refl)).
      destruct (keep_one p (T n j k d c)) as [E0|(g&E0&E1&E2&E3)]; rewrite Ek in E0; [discriminate|]. injection E0 as -> ->. pose proof (keep_kids _ _ _ _ _ _ _ Ek) as Kk. destruct g as [n' j' k' d' c']. cbn in E3, Kk. subst j' c'.
      cbn. rewrite app_nil_r, E. split; [intros [<-|[? ?]]; auto|]. intros [[<-|?] ?]; auto.
  Qed.

  Lemma lookup_unique (l : list tree) t : NoDup (map t_name l) -> In t l -> lookup (t_name t) l = Some t.
  Proof.
    unfold lookup. induction l as [|x l IH]; intros Nd Hi; [destruct Hi|]. cbn in Nd. inversion Nd as [|? ? N1 N2]; subst. cbn. destruct (String.eqb_spec (t_name x) (t_name t)) as [E|E].
    - destruct Hi as [->|Hi]; [reflexivity|]. destruct N1. rewrite E. apply in_map, Hi.
    - destruct Hi as [->|Hi]; [congruence|auto].
  Qed.
  Lemma lookup_none (l : list tree) n : lookup n l = None <-> ~ In n (map t_name l).
  Proof.
    unfold lookup. induction l as [|x l IH]; cbn; [tauto|]. destruct (String.eqb_spec (t_name x) n) as [E|E]; [split; [discriminate|tauto]|]. rewrite IH. tauto.
  Qed.
  Lemma keep_names p c : NoDup (map t_name c) -> NoDup (map t_name (flat_map (keep p) c)).
  Proof.
    induction c as [|x c IH]; cbn; intros Nd; [constructor|]. inversion Nd as [|? ? N1 N2]; subst. destruct (keep_one p x) as [->|(f&->&Ef&_)]; [auto|]. cbn. rewrite Ef. constructor; [|auto].
    intros Hi. apply N1. apply in_map_iff in Hi. destruct Hi as (g&Eg&Hg). apply keep_in in Hg. destruct Hg as (t&Ht&Hg). destruct (keep_some _ _ _ Hg) as [E _]. rewrite <- Eg, E. apply in_map, Ht.
  Qed.
  (* a chosen child is found by name *)
  Lemma keep_lookup p c t : NoDup (map t_name c) -> In t c -> lookup (t_name t) (flat_map (keep p) c) = match keep p t with [] => None | f :: _ => Some f end.
  Proof.
    intros Nd Hi. destruct (keep_one p t) as [E|(f&E&Ef&_)]; rewrite E.
    - apply lookup_none. intros H. apply in_map_iff in H. destruct H as (g&Eg&Hg). apply keep_in in Hg. destruct Hg as (u&Hu&Hg). destruct (keep_some _ _ _ Hg) as [E' _].
      pose proof (lookup_unique c t Nd Hi) as L1. pose proof (lookup_unique c u Nd Hu) as L2. rewrite <- Eg, E' in L1. congruence.
    - rewrite <- Ef. apply lookup_unique; [apply keep_names, Nd|]. apply in_flat_map. exists t. rewrite E. cbn. auto.
  Qed.

  Lemma by_field_keep p t f : proper t -> keep p t = [f] -> by_field f t = Some f.
  Proof.
    revert f. induction t as [n i k d c IH] using tree_ind'. rewrite Forall_forall in IH. intros f H Hk. inversion H as [? ? ? ? ? Nd Hs Hp]; subst.
    pose proof (keep_kids _ _ _ _ _ _ _ Hk) as Kk. destruct (keep_some _ _ _ Hk) as (E1&E2&E3). assert (Ef : f = T n i k d (flat_map (keep p) c)).
    { rewrite keep_eq in Hk. destruct (flat_map (keep p) c); [destruct c; [destruct (p i)|]; congruence|congruence]. }
    subst f. clear Kk E1 E2 E3. destruct k; cbn.
    - subst c. reflexivity.
    - assert (G : forall l, incl l (flat_map (keep p) c) -> (fix go (l : list tree) : option (list tree) := match l with [] => Some [] | x :: l' => match lookup (t_name x) c with None => None | Some y => match by_field x y, go l' with Some a, Some b => Some (a :: b) | _, _ => None end end end) l = Some l).
      { induction l as [|x l IHl]; intros Hl; [reflexivity|]. destruct (keep_in p c x (Hl x (or_introl eq_refl))) as (y&Hy&Hxy). destruct (keep_some _ _ _ Hxy) as [E _]. rewrite E, (lookup_unique c y Nd Hy), (IH y Hy x (Hp y Hy) Hxy), IHl; [reflexivity|]. intros z Hz. apply Hl. right. exact Hz. }
      rewrite G; [reflexivity|apply incl_refl].
    - destruct Hs as [x ->]. cbn. rewrite app_nil_r. destruct (keep_one p x) as [E|(g&E&_)]; rewrite E.
      + cbn in Hk. rewrite E in Hk. discriminate.
      + cbn. rewrite (IH x (or_introl eq_refl) g); auto. apply Hp. left. reflexivity.
  Qed.

  Lemma memz_in x l : memz x l = true <-> In x l.
  Proof. unfold memz. rewrite existsb_exists. split; [intros (y&Hy&E); apply Z.eqb_eq in E; now subst|]. intros H. exists x. split; [exact H|apply Z.eqb_refl]. Qed.

  (* the ids that are new: asked for, and not in the input *)
  Section New.
    Variables (p a : Z -> bool).
    Let q := fun i => p i && negb (a i).
    Lemma new_keep t : closed p t -> closed a t -> q (t_id t) = true -> keep q t <> [].
    Proof.
      induction t as [n i k d c IH] using tree_ind'. rewrite Forall_forall in IH. intros Hp Ha Hq. inversion Hp as [? ? ? ? ? Pc Pk]; subst. inversion Ha as [? ? ? ? ? Ac Ak]; subst. cbn [t_id] in Hq. rewrite keep_eq. destruct c as [|x c].
      { cbn. rewrite Hq. discriminate. }
      destruct Pc as [Pc|Pc]; [discriminate|]. destruct Ac as [Ac|Ac]; [discriminate|]. unfold q in Hq. apply andb_true_iff in Hq. destruct Hq as [Hq1 Hq2]. apply negb_true_iff in Hq2. rewrite Pc in Hq1. rewrite Ac in Hq2.
      apply existsb_exists in Hq1. destruct Hq1 as (y&Hy&Py).
      assert (Ay : a (t_id y) = false). { destruct (a (t_id y)) eqn:E; [|reflexivity]. assert (existsb (fun x => a (t_id x)) (x :: c) = true) by (apply existsb_exists; eauto). congruence. }
      destruct (flat_map (keep q) (x :: c)) eqn:E; [|discriminate]. rewrite flat_map_nil in E. destruct (IH y Hy (Pk y Hy) (Ak y Hy)); [unfold q; rewrite Py, Ay; reflexivity|auto].
    Qed.
    Lemma by_ids_keep ids t : closed p t -> closed a t -> (forall i, In i (ids_of t) -> memz i ids = q i) -> by_ids ids t = keep q t.
    Proof.
      induction t as [n i k d c IH] using tree_ind'. rewrite Forall_forall in IH. intros Hp Ha Hq. pose proof (new_keep _ Hp Ha) as Nk. inversion Hp as [? ? ? ? ? Pc Pk]; subst. inversion Ha as [? ? ? ? ? Ac Ak]; subst.
      assert (E : flat_map (by_ids ids) c = flat_map (keep q) c). { apply flat_map_ext_in'. intros x Hx. apply IH; auto. intros j Hj. apply Hq. cbn. right. apply in_flat_map. eauto. }
      cbn [by_ids]. rewrite E, (Hq i (or_introl eq_refl)). rewrite keep_eq in *. destruct (flat_map (keep q) c); [|reflexivity]. destruct c; [reflexivity|]. cbn [t_id] in Nk. destruct (q i); [destruct (Nk eq_refl eq_refl)|reflexivity].
    Qed.
    Lemma apply_projection_keep ids t : closed p t -> closed a t -> (forall i, In i (ids_of t) -> memz i ids = q i) -> apply_projection ids t = Some (keep q t).
    Proof.
      induction t as [n i k d c IH] using tree_ind'. rewrite Forall_forall in IH. intros Hp Ha Hq. pose proof (new_keep _ Hp Ha) as Nk. inversion Hp as [? ? ? ? ? Pc Pk]; subst. inversion Ha as [? ? ? ? ? Ac Ak]; subst.
      cbn [apply_projection].
      assert (E : (fix go (l : list tree) : option (list tree) := match l with [] => Some [] | x :: l' => match apply_projection ids x, go l' with Some a, Some b => Some (a ++ b) | _, _ => None end end) c = Some (flat_map (keep q) c)).
      { clear Pc Ac Nk Hp Ha. assert (G : forall l, incl l c -> (fix go (l : list tree) : option (list tree) := match l with [] => Some [] | x :: l' => match apply_projection ids x, go l' with Some a, Some b => Some (a ++ b) | _, _ => None end end) l = Some (flat_map (keep q) l)); [|apply G, incl_refl].
        induction l as [|x l IHl]; intros Hl; [reflexivity|]. assert (Hx : In x c) by (apply Hl; left; reflexivity). rewrite (IH x Hx), IHl; auto; [intros z Hz; apply Hl; right; exact Hz|]. intros j Hj. apply Hq. cbn. right. apply in_flat_map. eauto. }
      rewrite E, (Hq i (or_introl eq_refl)). rewrite keep_eq in *. destruct (flat_map (keep q) c); [|reflexivity]. destruct c; [cbn [t_id]; destruct (q i); reflexivity|]. cbn [t_id] in Nk. destruct (q i); [destruct (Nk eq_refl eq_refl)|reflexivity].
    Qed.
  End New.

  Lemma keep_or' p q t : keep p t = [] -> keep (fun i => p i || q i) t = keep q t.
  Proof. intros H. rewrite <- (keep_or q p t H). apply keep_ext. intros i _. apply orb_comm. Qed.

  (* the head of what is left has the name of the next field only if it is that field *)
  Lemma head_name p (rc : tree) rk f l : ~ In (t_name rc) (map t_name rk) -> flat_map (keep p) rk = f :: l -> String.eqb (t_name f) (t_name rc) = false.
  Proof.
    intros N E. apply String.eqb_neq. intros Q. apply N. rewrite <- Q. assert (Hf : In f (flat_map (keep p) rk)) by (rewrite E; left; reflexivity). apply keep_in in Hf. destruct Hf as (t&Ht&Hf). destruct (keep_some _ _ _ Hf) as [-> _]. apply in_map, Ht.
  Qed.
  Lemma merge_ref_keep p q t f g : proper t -> keep p t = [f] -> keep q t = [g] -> keep (fun i => p i || q i) t = [merge_ref t f g].
  Proof.
    revert f g. induction t as [n i k d c IH] using tree_ind'. rewrite Forall_forall in IH. intros f g H Hf Hg. inversion H as [? ? ? ? ? Nd Hs Hp]; subst.
    pose proof (keep_kids _ _ _ _ _ _ _ Hf) as Kf. pose proof (keep_kids _ _ _ _ _ _ _ Hg) as Kg.
    cbn [merge_ref]. rewrite Kf, Kg. clear Kf Kg.
    set (go := fix go (rk : list tree) (sk ok : list tree) : list tree :=
        match rk with
        | [] => []
        | rc :: rk' => match sk, ok with
          | sc :: sk', [] => if String.eqb (t_name sc) (t_name rc) then sc :: go rk' sk' [] else go rk' sk []
          | [], oc :: ok' => if String.eqb (t_name oc) (t_name rc) then oc :: go rk' [] ok' else go rk' [] ok
          | sc :: sk', oc :: ok' =>
              if String.eqb (t_name sc) (t_name rc) then (if String.eqb (t_name oc) (t_name rc) then merge_ref rc sc oc :: go rk' sk' ok' else sc :: go rk' sk' ok)
              else if String.eqb (t_name oc) (t_name rc) then oc :: go rk' sk ok' else go rk' sk ok
          | [], [] => []
          end
        end).
    assert (G : forall l, incl l c -> NoDup (map t_name l) -> go l (flat_map (keep p) l) (flat_map (keep q) l) = flat_map (keep (fun i => p i || q i)) l).
    { induction l as [|x l IHl]; intros Hl Nl; [reflexivity|]. cbn in Nl. inversion Nl as [|? ? N1 N2]; subst. assert (Hx : In x c) by (apply Hl; left; reflexivity). specialize (IHl (fun z Hz => Hl z (or_intror Hz)) N2).
      cbn [flat_map]. destruct (keep_one p x) as [Ep|(a&Ep&Ea&_)], (keep_one q x) as [Eq|(b&Eq&Eb&_)]; rewrite Ep, Eq; cbn [app].
      - rewrite (proj2 (keep_or_nil p q x) (conj Ep Eq)). cbn [app]. cbn [go]. destruct (flat_map (keep p) l) as [|a sk] eqn:E1, (flat_map (keep q) l) as [|b ok] eqn:E2.
        + rewrite <- IHl. destruct l; reflexivity.
        + rewrite (head_name _ _ _ _ _ N1 E2). exact IHl.
        + rewrite (head_name _ _ _ _ _ N1 E1). exact IHl.
        + rewrite (head_name _ _ _ _ _ N1 E1), (head_name _ _ _ _ _ N1 E2). exact IHl.
      - rewrite (keep_or' _ _ _ Ep), Eq. cbn [app]. cbn [go]. destruct (flat_map (keep p) l) as [|a sk] eqn:E1; rewrite Eb, String.eqb_refl; [rewrite <- IHl; reflexivity|]. rewrite (head_name _ _ _ _ _ N1 E1), <- IHl. reflexivity.
      - rewrite (keep_or _ _ _ Eq), Ep. cbn [app]. cbn [go]. destruct (flat_map (keep q) l) as [|b ok] eqn:E2; rewrite Ea, String.eqb_refl; [rewrite <- IHl; reflexivity|]. rewrite (head_name _ _ _ _ _ N1 E2), <- IHl. reflexivity.
      - rewrite (IH x Hx a b (Hp x Hx) Ep Eq). cbn [app]. cbn [go]. rewrite Ea, Eb, String.eqb_refl, <- IHl. reflexivity. }
    rewrite G; [|apply incl_refl|exact Nd].
    assert (Ef : exists c', f = T n i k d c'). { rewrite keep_eq in Hf. destruct (flat_map (keep p) c); [destruct c; [destruct (p i)|]|]; try discriminate; injection Hf as <-; eauto. }
    destruct Ef as [c' ->]. cbn [with_kids]. rewrite keep_eq. destruct c as [|x c].
    - cbn in *. destruct (p i); [reflexivity|discriminate].
    - destruct (flat_map (keep (fun i => p i || q i)) (x :: c)) eqn:E; [|reflexivity]. exfalso. rewrite keep_eq in Hf. rewrite flat_map_nil in E. assert (E' : flat_map (keep p) (x :: c) = []) by (apply flat_map_nil; intros y Hy; apply (proj1 (keep_or_nil p q y) (E y Hy))). rewrite E' in Hf. discriminate.
  Qed.

  (* what comes out for a field: as chosen, but a struct of which both parts have children has lost its nulls, and a list of which both
     parts have something below has only what was in the input *)
  Variable no_nulls : D.
  Fixpoint merged (p q : Z -> bool) (t : tree) : list tree :=
    match keep p t, keep q t with
    | [], g => g
    | f, [] => f
    | f, _ => match t with T n i KStruct d c => [T n i KStruct no_nulls (flat_map (merged p q) c)] | _ => f end
    end.
  Lemma merged_eq p q n i k d c : merged p q (T n i k d c) = match keep p (T n i k d c), keep q (T n i k d c) with [], g => g | f, [] => f | f, _ => match k with KStruct => [T n i KStruct no_nulls (flat_map (merged p q) c)] | _ => f end end.
  Proof. cbn [merged]. destruct (keep p (T n i k d c)), (keep q (T n i k d c)); reflexivity. Qed.

  Lemma matching_lookup (f : tree) l : (forall g, lookup (t_name f) l = Some g -> t_kind g = t_kind f) -> matching f l = lookup (t_name f) l.
  Proof.
    unfold matching, lookup. induction l as [|x l IH]; intros H; cbn; [reflexivity|]. cbn in H. destruct (String.eqb (t_name x) (t_name f)) eqn:E; cbn; [|apply IH, H].
    unfold is_struct. rewrite (H x eq_refl). rewrite eqb_reflx. reflexivity.
  Qed.
  Definition head {A} (l : list A) : option A := match l with [] => None | x :: _ => Some x end.
  Lemma merge_field_keep p q t u L R : proper t -> keep (fun i => p i || q i) t = [u] ->
    lookup (t_name t) L = head (keep p t) -> lookup (t_name t) R = head (keep q t) -> merge_field no_nulls u L R = merged p q t.
  Proof.
    revert u L R. induction t as [n i k d c IH] using tree_ind'. rewrite Forall_forall in IH. intros u L R H Hu HL HR. inversion H as [? ? ? ? ? Nd Hs Hp]; subst.
    destruct (keep_some _ _ _ Hu) as (U1&U2&U3). pose proof (keep_kids _ _ _ _ _ _ _ Hu) as Uk.
    assert (ML : matching u L = head (keep p (T n i k d c))).
    { rewrite matching_lookup, U1; [exact HL|]. intros g. rewrite U1, HL. destruct (keep_one p (T n i k d c)) as [->|(a&->&_&Ea&_)]; cbn; [discriminate|]. intros E. injection E as <-. rewrite U2. exact Ea. }
    assert (MR : matching u R = head (keep q (T n i k d c))).
    { rewrite matching_lookup, U1; [exact HR|]. intros g. rewrite U1, HR. destruct (keep_one q (T n i k d c)) as [->|(a&->&_&Ea&_)]; cbn; [discriminate|]. intros E. injection E as <-. rewrite U2. exact Ea. }
    rewrite merged_eq. destruct u as [n' i' k' d' c']. cbn in U1, U2, U3, Uk. subst n' k' i' c'. cbn [merge_field]. rewrite ML, MR.
    destruct (keep_one p (T n i k d c)) as [Ep|(a&Ep&A1&A2&_)], (keep_one q (T n i k d c)) as [Eq|(b&Eq&B1&B2&_)]; rewrite Ep, Eq; cbn [head]; try reflexivity.
    destruct k; try reflexivity. f_equal. f_equal. rewrite (keep_kids _ _ _ _ _ _ _ Ep), (keep_kids _ _ _ _ _ _ _ Eq).
      assert (G : forall l, incl l c -> flat_map (fun g => merge_field no_nulls g (flat_map (keep p) c) (flat_map (keep q) c)) (flat_map (keep (fun i => p i || q i)) l) = flat_map (merged p q) l); [|apply G, incl_refl].
      induction l as [|x l IHl]; intros Hl; [reflexivity|]. assert (Hx : In x c) by (apply Hl; left; reflexivity). cbn [flat_map]. rewrite flat_map_app, IHl; [|intros z Hz; apply Hl; right; exact Hz]. f_equal.
      destruct (keep_one (fun i => p i || q i) x) as [E|(v&E&_)]; rewrite E; cbn [flat_map].
      + apply keep_or_nil in E. destruct E as [E1 E2]. destruct x; rewrite merged_eq, E1, E2. reflexivity.
      + rewrite app_nil_r. apply (IH x Hx); auto; rewrite keep_lookup; auto.
  Qed.
End Late.
