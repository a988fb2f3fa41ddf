(* What is proved about ColMapModel: the columns of a schema, the indices of a projection, the columns read. *)
From Coq Require Import List Arith Bool Lia Permutation.
From Verif Require Import Lib ColMapModel.
Import ListNotations.

Section Ind.
  Variable P : field -> Prop.
  Hypothesis H : forall a cs, Forall P cs -> P (Fld a cs).
  Fixpoint field_ind' (f : field) : P f :=
    match f with
    | Fld a cs => H a cs ((fix go (l : list field) : Forall P l := match l with [] => Forall_nil _ | x :: t => Forall_cons x (field_ind' x) (go t) end) cs)
    end.
End Ind.

(* ---- the specification: the columns of a field, in the order of the schema ---- *)
Definition col (a : attrs) (r : role) : column := {| c_owner := at_id a; c_role := r |}.
Fixpoint columns_of (s : bool) (f : field) : list column :=
  match f with
  | Fld a cs =>
      let below := flat_map (columns_of s) cs in
      match at_kind a with
      | KLeaf => [col a RLeaf]
      | KList => if s then below else col a RList :: below
      | KStruct => if packed_for s a then [col a RPacked] else if s then below else col a RStruct :: below
      end
  end.
(* the fields without a column of their own *)
Fixpoint bare (s : bool) (f : field) : list nat :=
  match f with
  | Fld a cs =>
      match at_kind a with
      | KLeaf => []
      | KList => (if s then [at_id a] else []) ++ flat_map (bare s) cs
      | KStruct => if packed_for s a then map f_id (flat_map pre cs) else (if s then [at_id a] else []) ++ flat_map (bare s) cs
      end
  end.
(* lists have one child and leaves have none *)
Fixpoint f_ok (f : field) : Prop :=
  match f with
  | Fld a cs =>
      match at_kind a with KLeaf => cs = [] | KList => length cs = 1 | KStruct => True end
      /\ (fix all l := match l with [] => True | x :: t => f_ok x /\ all t end) cs
  end.
Lemma f_ok_iff : forall a cs, f_ok (Fld a cs) <-> match at_kind a with KLeaf => cs = [] | KList => length cs = 1 | KStruct => True end /\ Forall f_ok cs.
Proof.
  intros a cs. cbn [f_ok]. enough (forall l, (fix all l := match l with [] => True | x :: t => f_ok x /\ all t end) l <-> Forall f_ok l) as E by now rewrite E.
  induction l as [|x t IH]; [split; auto|]. rewrite IH. split; [intros [A B]; constructor; auto|intros F; inversion F; auto].
Qed.
(* a projection: any of the fields, in any order, and of their children *)
Inductive part_of : field -> field -> Prop :=
| Part a cs ds : (forall c, In c cs -> exists d, In d ds /\ part_of c d) -> part_of (Fld a cs) (Fld a ds).
Definition parts (p fs : list field) : Prop := forall f, In f p -> exists g, In g fs /\ part_of f g.
Definition ids (fs : list field) : list nat := map f_id (pre_order fs).

(* ---- the writer ---- *)
Lemma map_snd_combine' {A B} : forall (a : list A) (b : list B), length a = length b -> map snd (combine a b) = b.
Proof. induction a as [|x a IH]; intros [|y b] L; try discriminate; [reflexivity|]. cbn. f_equal. apply IH. now injection L. Qed.
Definition numbered (n : nat) (cols : list column) : encoded := combine (seq n (length cols)) cols.
Definition map_of (e : encoded) : mapping := map (fun p => (c_owner (snd p), fst p)) e.
Lemma numbered_app : forall n a b, numbered n a ++ numbered (n + length a) b = numbered n (a ++ b).
Proof.
  intros n a b. unfold numbered. rewrite app_length, seq_app. revert n. induction a as [|x a IH]; intros n; cbn [length seq app combine].
  - now rewrite Nat.add_0_r.
  - cbn [app]. f_equal. replace (n + S (length a)) with (S n + length a) by lia. apply IH.
Qed.
Lemma map_of_app : forall a b, map_of (a ++ b) = map_of a ++ map_of b.
Proof. intros a b. apply map_app. Qed.
Definition done (n : nat) (cols : list column) : option (encoded * mapping * nat) :=
  Some (numbered n cols, map_of (numbered n cols), n + length cols).
Lemma own_done : forall a r n, Some (own a r n) = done n [col a r].
Proof. intros a r n. unfold own, done, numbered, map_of. cbn. now rewrite Nat.add_1_r. Qed.
Lemma all_done : forall s cs, Forall f_ok cs -> Forall (fun f => f_ok f -> forall n, create_encoder s f n = done n (columns_of s f)) cs -> forall n,
  create_all s cs n = done n (flat_map (columns_of s) cs).
Proof.
  intros s cs W F. induction F as [|c t X F IH]; intros n; [cbn; unfold done; cbn; now rewrite Nat.add_0_r|].
  apply Forall_cons_iff in W as [W0 W]. cbn [create_all flat_map]. rewrite (X W0 n). unfold done at 1. rewrite (IH W). unfold done. rewrite app_length, <- numbered_app, map_of_app, Nat.add_assoc. reflexivity.
Qed.
Lemma enc_all : forall s a cs n, create_encoder s (Fld a cs) n =
  (let with_header (r : role) (rest : nat -> option (encoded * mapping * nat)) :=
        if s then rest n
        else match own a r n with
             | (x, m, n1) => match rest n1 with Some (y, m2, n2) => Some (x ++ y, m ++ m2, n2) | None => None end
             end in
      match at_kind a with
      | KLeaf => Some (own a RLeaf n)
      | KList => match cs with [c] => with_header RList (create_encoder s c) | _ => None end
      | KStruct => if packed_for s a then Some (own a RPacked n) else with_header RStruct (create_all s cs)
      end).
Proof.
  intros s a cs n. cbn [create_encoder]. destruct (at_kind a); [reflexivity|reflexivity|]. destruct (packed_for s a); [reflexivity|].
  assert (E : forall l m, (fix all (cs : list field) (n : nat) : option (encoded * mapping * nat) :=
        match cs with
        | [] => Some ([], [], n)
        | c :: t =>
            match create_encoder s c n with
            | Some (x, m, n1) => match all t n1 with Some (y, m2, n2) => Some (x ++ y, m ++ m2, n2) | None => None end
            | None => None
            end
        end) l m = create_all s l m).
  { induction l as [|x t IH]; intros m; [reflexivity|]. cbn [create_all]. destruct (create_encoder s x m) as [[[e p] k]|]; [|reflexivity]. now rewrite IH. }
  destruct s; [apply E|]. cbn [own]. now rewrite E.
Qed.
Lemma header_done : forall a r n cols, match own a r n with (x, m, n1) => match done n1 cols with Some (y, m2, n2) => Some (x ++ y, m ++ m2, n2) | None => None end end = done n (col a r :: cols).
Proof.
  intros a r n cols. unfold own, done. change (col a r :: cols) with ([col a r] ++ cols). rewrite <- numbered_app, map_of_app, app_length. cbn [length].
  rewrite Nat.add_1_r. cbn [length plus]. rewrite Nat.add_succ_r. reflexivity.
Qed.
Theorem encoder_exact : forall s f, f_ok f -> forall n, create_encoder s f n = done n (columns_of s f).
Proof.
  intros s f. induction f as [a cs IH] using field_ind'. intros W n. apply f_ok_iff in W as [K W]. rewrite enc_all. cbn zeta. cbn [columns_of].
  destruct (at_kind a).
  - apply own_done.
  - destruct cs as [|c [|? ?]]; try discriminate. apply Forall_cons_iff in W as [W _]. apply Forall_cons_iff in IH as [IH _].
    cbn [flat_map]. rewrite app_nil_r. destruct s; [now apply IH|]. unfold own at 1. rewrite (IH W). apply (header_done a RList).
  - destruct (packed_for s a); [apply own_done|]. pose proof (all_done s cs W IH) as X. destruct s; [apply X|]. unfold own at 1. rewrite X. apply (header_done a RStruct).
Qed.
Theorem written_exact : forall s fs, Forall f_ok fs ->
  written s fs = Some (flat_map (columns_of s) fs, map_of (numbered 0 (flat_map (columns_of s) fs))).
Proof.
  intros s fs W. unfold written. rewrite (all_done s fs W).
  - unfold done. cbn [omap fst snd]. unfold file_columns, numbered. f_equal. f_equal. apply map_snd_combine'. now rewrite seq_length.
  - apply Forall_forall. intros f _ Hf n. now apply encoder_exact.
Qed.

(* ---- indices of a projection ---- *)
Lemma lookup_in : forall m id i, NoDup (map fst m) -> In (id, i) m -> lookup m id = Some i.
Proof.
  intros m id i N Hi. unfold lookup. destruct (find (fun p => fst p =? id) (rev m)) as [[k j]|] eqn:F.
  - apply find_some in F as [F E]. cbn in E. apply Nat.eqb_eq in E. subst k. cbn. f_equal. apply in_rev in F.
    clear - N Hi F. induction m as [|[a b] t IH]; [destruct Hi|]. cbn in N. apply NoDup_cons_iff in N as [A N]. destruct Hi as [X|Hi], F as [Y|F]; try congruence; auto.
    + injection X as -> ->. exfalso. apply A. apply in_map_iff. now exists (id, j).
    + injection Y as -> ->. exfalso. apply A. apply in_map_iff. now exists (id, i).
  - exfalso. eapply find_none in F; [|apply in_rev; rewrite rev_involutive; exact Hi]. cbn in F. now rewrite Nat.eqb_refl in F.
Qed.
Lemma lookup_out : forall m id, ~ In id (map fst m) -> lookup m id = None.
Proof.
  intros m id N. unfold lookup. destruct (find (fun p => fst p =? id) (rev m)) as [[k j]|] eqn:F; [|reflexivity].
  apply find_some in F as [F E]. cbn in E. apply Nat.eqb_eq in E. subst k. exfalso. apply N. apply in_map_iff. exists (id, j). split; [reflexivity|]. now apply in_rev.
Qed.
Definition owners (cols : list column) : list nat := map c_owner cols.
Lemma fst_map_of : forall n cols, map fst (map_of (numbered n cols)) = owners cols.
Proof.
  intros n cols. unfold map_of, numbered, owners. rewrite map_map. cbn. rewrite <- (map_map snd c_owner). f_equal. apply map_snd_combine'. now rewrite seq_length.
Qed.
Lemma in_map_of : forall n cols k c, nth_error cols k = Some c -> In (c_owner c, n + k) (map_of (numbered n cols)).
Proof.
  intros n cols k c. unfold map_of, numbered. revert n k. induction cols as [|x t IH]; intros n [|k] E; try discriminate; cbn in *.
  - injection E as ->. left. f_equal. lia.
  - right. replace (n + S k) with (S n + k) by lia. now apply IH.
Qed.
(* ids with a column and ids without one are all the ids *)
Lemma ids_cons : forall a cs, map f_id (pre (Fld a cs)) = at_id a :: map f_id (flat_map pre cs).
Proof. reflexivity. Qed.
Lemma flat_perm : forall (g h k : field -> list nat) cs, Forall (fun f => f_ok f -> Permutation (g f) (h f ++ k f)) cs -> Forall f_ok cs ->
  Permutation (flat_map g cs) (flat_map h cs ++ flat_map k cs).
Proof.
  intros g h k cs F W. induction F as [|x t X F IH]; [reflexivity|]. apply Forall_cons_iff in W as [W0 W]. cbn [flat_map]. rewrite (X W0), (IH W).
  rewrite <- !app_assoc. apply Permutation_app_head. rewrite !app_assoc. apply Permutation_app_tail. apply Permutation_app_comm.
Qed.
Lemma flat_map_same {A B} : forall (f g : A -> list B) l, (forall x, In x l -> f x = g x) -> flat_map f l = flat_map g l.
Proof. induction l as [|x t IH]; intros H; [reflexivity|]. cbn [flat_map]. rewrite (H x) by now left. f_equal. apply IH. intros y Hy. apply H. now right. Qed.
Lemma map_flat : forall {A B C} (f : B -> C) (g : A -> list B) l, map f (flat_map g l) = flat_map (fun x => map f (g x)) l.
Proof. induction l as [|x t IH]; [reflexivity|]. cbn [flat_map]. now rewrite map_app, IH. Qed.
Lemma ids_split : forall s f, f_ok f -> Permutation (map f_id (pre f)) (owners (columns_of s f) ++ bare s f).
Proof.
  intros s f. induction f as [a cs IH] using field_ind'. intros W. apply f_ok_iff in W as [K W]. rewrite ids_cons. cbn [columns_of bare].
  assert (X : Permutation (map f_id (flat_map pre cs)) (owners (flat_map (columns_of s) cs) ++ flat_map (bare s) cs)).
  { unfold owners. rewrite !map_flat. now apply flat_perm. }
  destruct (at_kind a).
  - subst cs. reflexivity.
  - destruct s; cbn [owners map app].
    + etransitivity; [apply perm_skip; exact X|]. apply Permutation_middle.
    + now apply perm_skip.
  - destruct (packed_for s a); [reflexivity|]. destruct s; cbn [owners map app].
    + etransitivity; [apply perm_skip; exact X|]. apply Permutation_middle.
    + now apply perm_skip.
Qed.
Lemma schema_split : forall s fs, Forall f_ok fs -> Permutation (ids fs) (owners (flat_map (columns_of s) fs) ++ flat_map (bare s) fs).
Proof.
  intros s fs W. unfold ids, pre_order, owners. rewrite !map_flat. apply flat_perm; [|exact W]. apply Forall_forall. intros f _ Hf. now apply ids_split.
Qed.
(* parts of fields *)
Lemma part_pre : forall f g, part_of f g -> incl (map f_id (pre f)) (map f_id (pre g)).
Proof.
  intros f. induction f as [a cs IH] using field_ind'. intros g H. inversion H as [a' cs' ds Hd]; subst. rewrite !ids_cons. intros x [E|Hx]; [now left|right].
  rewrite map_flat in *. apply in_flat_map in Hx as (c & Hc & Hx). destruct (Hd c Hc) as (d & Hin & P). apply in_flat_map. exists d. split; [exact Hin|].
  rewrite Forall_forall in IH. now apply (IH c Hc d P).
Qed.
Lemma part_columns : forall s f g, part_of f g -> incl (columns_of s f) (columns_of s g).
Proof.
  intros s f. induction f as [a cs IH] using field_ind'. intros g H. inversion H as [a' cs' ds Hd]; subst.
  assert (X : incl (flat_map (columns_of s) cs) (flat_map (columns_of s) ds)).
  { intros x Hx. apply in_flat_map in Hx as (c & Hc & Hx). destruct (Hd c Hc) as (d & Hin & P). apply in_flat_map. exists d. split; [exact Hin|]. rewrite Forall_forall in IH. now apply (IH c Hc d P). }
  cbn [columns_of]. destruct (at_kind a); [apply incl_refl| |].
  - destruct s; [exact X|]. intros x [E|Hx]; [now left|right; auto].
  - destruct (packed_for s a); [apply incl_refl|]. destruct s; [exact X|]. intros x [E|Hx]; [now left|right; auto].
Qed.
Lemma part_bare : forall s f g, part_of f g -> incl (bare s f) (bare s g).
Proof.
  intros s f. induction f as [a cs IH] using field_ind'. intros g H. inversion H as [a' cs' ds Hd]; subst.
  assert (X : incl (flat_map (bare s) cs) (flat_map (bare s) ds)).
  { intros x Hx. apply in_flat_map in Hx as (c & Hc & Hx). destruct (Hd c Hc) as (d & Hin & P). apply in_flat_map. exists d. split; [exact Hin|]. rewrite Forall_forall in IH. now apply (IH c Hc d P). }
  assert (Y : incl (map f_id (flat_map pre cs)) (map f_id (flat_map pre ds))).
  { pose proof (part_pre _ _ H) as Y. rewrite !ids_cons in Y. intros x Hx. rewrite map_flat in *. apply in_flat_map in Hx as (c & Hc & Hx). destruct (Hd c Hc) as (d & Hin & P). apply in_flat_map. exists d. split; [exact Hin|]. now apply (part_pre _ _ P). }
  cbn [bare]. destruct (at_kind a); [apply incl_refl| |].
  - apply incl_app; [apply incl_appl, incl_refl|now apply incl_appr].
  - destruct (packed_for s a); [exact Y|]. apply incl_app; [apply incl_appl, incl_refl|now apply incl_appr].
Qed.
Lemma parts_incl {A} : forall (h : field -> list A) p fs, (forall f g, part_of f g -> incl (h f) (h g)) -> parts p fs -> incl (flat_map h p) (flat_map h fs).
Proof. intros h p fs Hh P x Hx. apply in_flat_map in Hx as (f & Hf & Hx). destruct (P f Hf) as (g & Hg & Q). apply in_flat_map. exists g. split; [exact Hg|]. now apply (Hh f g Q). Qed.

(* the indices: those of the columns of the projection *)
Definition no_packed (structural : bool) (fs : list field) : Prop := forall f, In f (pre_order fs) -> at_kind (f_attrs f) = KStruct -> packed_for structural (f_attrs f) = false.
Lemma from_field_exact : forall s m pos f, f_ok f -> (s = true -> no_packed true [f]) ->
  (forall c, In c (columns_of s f) -> lookup m (c_owner c) = Some (pos (c_owner c))) -> (forall x, In x (bare s f) -> lookup m x = None) ->
  from_field s m f = map pos (owners (columns_of s f)).
Proof.
  intros s m pos f. induction f as [a cs IH] using field_ind'. intros W NP H1 H2. apply f_ok_iff in W as [K W].
  assert (X : (forall c, In c (flat_map (columns_of s) cs) -> lookup m (c_owner c) = Some (pos (c_owner c))) -> (forall x, In x (flat_map (bare s) cs) -> lookup m x = None) ->
              (s = true -> no_packed true cs) -> flat_map (from_field s m) cs = map pos (owners (flat_map (columns_of s) cs))).
  { intros A B N. unfold owners. rewrite !map_flat. apply flat_map_same. intros c Hc. rewrite Forall_forall in IH, W. rewrite (IH c Hc (W c Hc)); [reflexivity| | |].
    - intros E f Hf. apply (N E). apply in_flat_map in Hf as (g & [<-|[]] & Hf). apply in_flat_map. eauto.
    - intros x Hx. apply A. apply in_flat_map. eauto.
    - intros x Hx. apply B. apply in_flat_map. eauto. }
  assert (N' : s = true -> no_packed true cs).
  { intros E f Hf. apply (NP E). unfold pre_order. cbn [flat_map pre]. rewrite app_nil_r. right. exact Hf. }
  cbn [from_field]. cbn [columns_of bare] in *. destruct (at_kind a) eqn:Ek.
  - subst cs. cbn [flat_map]. rewrite orb_true_r, app_nil_r. pose proof (H1 (col a RLeaf) (or_introl eq_refl)) as E1; cbn [c_owner col] in E1; rewrite E1. reflexivity.
  - destruct cs as [|c [|? ?]]; try discriminate. destruct s; cbn [negb orb app].
    + apply X; auto. intros x Hx. apply H2. right. exact Hx.
    + pose proof (H1 (col a RList) (or_introl eq_refl)) as E1; cbn [c_owner col] in E1; rewrite E1. cbn [map owners app]. f_equal. apply X; auto. intros x Hx. apply H1. now right.
  - destruct (packed_for s a) eqn:Ep.
    + destruct s; [exfalso|].
      * assert (Z : packed_for true a = false); [|congruence]. apply (NP eq_refl (Fld a cs)); [|exact Ek]. unfold pre_order. cbn [flat_map pre]. now left.
      * cbn [negb orb]. pose proof (H1 (col a RPacked) (or_introl eq_refl)) as E1; cbn [c_owner col] in E1; rewrite E1. cbn [map owners app]. f_equal. 
        assert (Y : forall l, (forall x, In x (map f_id (flat_map pre l)) -> lookup m x = None) -> flat_map (from_field false m) l = []).
        { clear. assert (Z : forall f, (forall x, In x (map f_id (pre f)) -> lookup m x = None) -> from_field false m f = []).
          { intros f. induction f as [b ds IHd] using field_ind'. intros A. rewrite ids_cons in A. cbn [from_field negb orb]. rewrite (A (at_id b)) by now left. cbn [app].
            rewrite map_flat in A. induction IHd as [|d t Hd F IHt]; [reflexivity|]. cbn [flat_map]. rewrite Hd, IHt; [reflexivity| |].
            - intros x [E|Hx]; apply A; [now left|right]. cbn [flat_map]. apply in_or_app. now right.
            - intros x Hx. apply A. right. cbn [flat_map]. apply in_or_app. now left. }
          induction l as [|d t IH]; intros A; [reflexivity|]. cbn [flat_map] in *. rewrite Z, IH; [reflexivity| |]; intros x Hx; apply A; rewrite map_app; apply in_or_app; auto. }
        apply Y. exact H2.
    + destruct s; cbn [negb orb].
      * destruct cs as [|c t]; [|cbn [app]; apply X; auto; intros x Hx; apply H2; right; exact Hx].
        rewrite (H2 (at_id a)) by now left. reflexivity.
      * pose proof (H1 (col a RStruct) (or_introl eq_refl)) as E1; cbn [c_owner col] in E1; rewrite E1. cbn [map owners app]. f_equal. apply X; auto. intros x Hx. apply H1. now right.
Qed.

(* ---- the reader ---- *)
Definition finds (cols : list column) (c : column) (i : nat) : Prop := nth_error cols i = Some c.
Definition at_ (cols : list column) (idx : list nat) (k : nat) (it : iter) : Prop := ci_cols it = cols /\ ci_idx it = idx /\ ci_ip it = k.
Lemma next_top_at : forall cols idx k it, at_ cols idx k it -> at_ cols idx (S k) (next_top it) /\ ci_pos (next_top it) = match nth_error idx (S k) with Some i => i | None => length cols end.
Proof. intros cols idx k it (A & B & C). unfold at_, next_top. cbn. now rewrite A, B, C. Qed.
Lemma it_next_at : forall cols idx k it c, at_ cols idx k it -> finds cols c (ci_pos it) -> exists it1, it_next it = Some (c, ci_pos it, it1) /\ at_ cols idx k it1.
Proof. intros cols idx k it c (A & B & C) F. unfold it_next. rewrite A, F. eexists. split; [reflexivity|]. now repeat split. Qed.
Fixpoint legacy_all (cs : list field) (it : iter) : option (list (nat * nat) * iter) :=
  match cs with
  | [] => Some ([], it)
  | x :: t =>
      match legacy x (next_top it) with
      | Some (r, it1) => match legacy_all t it1 with Some (r2, it2) => Some (r ++ r2, it2) | None => None end
      | None => None
      end
  end.
Lemma legacy_eq : forall a cs it, legacy (Fld a cs) it =
  match it_next it with
  | None => None
  | Some (c, p, it1) =>
      match at_kind a with
      | KLeaf => Some ([(at_id a, p)], it1)
      | KList =>
          match cs, c_role c with
          | [x], RList => match legacy x (next_top it1) with Some (r, it2) => Some ((at_id a, p) :: r, it2) | None => None end
          | _, _ => None
          end
      | KStruct =>
          match c_role c with
          | RPacked => Some ([(at_id a, p)], it1)
          | RStruct => match legacy_all cs it1 with Some (r, it2) => Some ((at_id a, p) :: r, it2) | None => None end
          | _ => None
          end
      end
  end.
Proof. reflexivity. Qed.
(* a field reads the columns of the next indices, one for each of its columns *)
Definition legacy_reads (f : field) : Prop := forall cols before L after it, Forall2 (finds cols) (columns_of false f) L ->
  at_ cols (before ++ L ++ after) (length before) it -> ci_pos it = hd 0 L ->
  exists it', legacy f it = Some (combine (owners (columns_of false f)) L, it') /\ at_ cols (before ++ L ++ after) (length before + length L - 1) it'.
Lemma columns_some : forall f, columns_of false f <> [].
Proof. intros [a cs]. cbn [columns_of]. destruct (at_kind a); [discriminate|discriminate|]. destruct (packed_for false a); discriminate. Qed.
Lemma combine_app2 {A B} : forall (a a' : list A) (b b' : list B), length a = length b -> combine (a ++ a') (b ++ b') = combine a b ++ combine a' b'.
Proof. induction a as [|x a IH]; intros a' [|y b] b' L; try discriminate; [reflexivity|]. cbn. f_equal. apply IH. now injection L. Qed.
Lemma Forall2_len {A B} (R : A -> B -> Prop) : forall a b, Forall2 R a b -> length a = length b.
Proof. induction 1; cbn; congruence. Qed.
Lemma legacy_all_reads : forall cs, Forall legacy_reads cs -> forall cols before L after it, Forall2 (finds cols) (flat_map (columns_of false) cs) L ->
  at_ cols (before ++ L ++ after) (length before - 1) it -> 0 < length before ->
  exists it', legacy_all cs it = Some (combine (owners (flat_map (columns_of false) cs)) L, it') /\ at_ cols (before ++ L ++ after) (length before - 1 + length L) it'.
Proof.
  intros cs F. induction F as [|f t Hf F IH]; intros cols before L after it R A P; cbn [flat_map] in R.
  - inversion R; subst L. exists it. split; [reflexivity|]. cbn [length]. now rewrite Nat.add_0_r.
  - apply Forall2_app_inv_l in R as (L1 & L2 & R1 & R2 & ->). pose proof (Forall2_len _ _ _ R1) as E1.
    assert (N1 : L1 <> []). { intros ->. inversion R1 as [E|]. now apply (columns_some f). }
    destruct (next_top_at _ _ _ _ A) as [A1 A2]. replace (S (length before - 1)) with (length before) in * by lia.
    replace (before ++ (L1 ++ L2) ++ after) with (before ++ L1 ++ (L2 ++ after)) in * by now rewrite <- app_assoc.
    destruct (Hf cols before L1 (L2 ++ after) (next_top it) R1 A1) as (it1 & Q1 & Q2).
    { rewrite A2, nth_error_app2, Nat.sub_diag by lia. destruct L1; [congruence|reflexivity]. }
    assert (0 < length L1) by (destruct L1; [congruence|cbn; lia]).
    destruct (IH cols (before ++ L1) L2 after it1 R2) as (it2 & Q3 & Q4).
    { rewrite <- app_assoc, app_length. exact Q2. }
    { rewrite app_length. lia. }
    exists it2. cbn [legacy_all]. rewrite Q1, Q3. split.
    + unfold owners. cbn [flat_map]. rewrite map_app, combine_app2 by (rewrite map_length; exact E1). reflexivity.
    + rewrite <- app_assoc, app_length in Q4. rewrite app_length. replace (length before - 1 + (length L1 + length L2)) with (length before + length L1 - 1 + length L2) by lia. exact Q4.
Qed.
Theorem legacy_exact : forall f, f_ok f -> legacy_reads f.
Proof.
  intros f. induction f as [a cs IH] using field_ind'. intros W. apply f_ok_iff in W as [K W]. intros cols before L after it R A P.
  assert (IH' : Forall legacy_reads cs) by (apply Forall_forall; intros c Hc; rewrite Forall_forall in IH, W; auto).
  destruct L as [|i L]; [inversion R as [E|]; now destruct (columns_some (Fld a cs))|].
  assert (G : forall r rest, columns_of false (Fld a cs) = col a r :: rest -> exists it1, it_next it = Some (col a r, i, it1) /\ at_ cols (before ++ (i :: L) ++ after) (length before) it1 /\ Forall2 (finds cols) rest L).
  { intros r rest E. rewrite E in R. inversion R; subst. cbn [hd] in P. destruct (it_next_at cols _ _ it (col a r) A) as (it1 & B1 & B2); [now rewrite P|]. rewrite P in B1. eauto. }
  assert (S1 : forall r, columns_of false (Fld a cs) = [col a r] -> forall it1, at_ cols (before ++ (i :: L) ++ after) (length before) it1 -> L = [] ->
             exists it', Some ([(at_id a, i)], it1) = Some (combine (owners (columns_of false (Fld a cs))) (i :: L), it') /\ at_ cols (before ++ (i :: L) ++ after) (length before + length (i :: L) - 1) it').
  { intros r E it1 B ->. rewrite E. exists it1. split; [reflexivity|]. cbn [length]. now replace (length before + 1 - 1) with (length before) by lia. }
  rewrite legacy_eq. remember (columns_of false (Fld a cs)) as C eqn:EC. cbn [columns_of] in EC. destruct (at_kind a) eqn:Ek.
  - destruct (G RLeaf [] EC) as (it1 & -> & B & R'). inversion R'; subst L. now apply (S1 RLeaf).
  - destruct cs as [|c [|? ?]]; try discriminate. cbn [flat_map] in EC. rewrite app_nil_r in EC. destruct (G RList _ EC) as (it1 & -> & B & R'). cbn [c_role col].
    destruct (next_top_at _ _ _ _ B) as [B1 B2]. apply Forall_cons_iff in IH' as [IH' _].
    assert (NL : L <> []). { intros ->. inversion R' as [E|]. now apply (columns_some c). }
    replace (before ++ (i :: L) ++ after) with ((before ++ [i]) ++ L ++ after) in * by (now rewrite <- app_assoc).
    destruct (IH' cols (before ++ [i]) L after (next_top it1) R') as (it2 & Q1 & Q2).
    { rewrite app_length. cbn [length]. now rewrite Nat.add_1_r. }
    { rewrite B2, nth_error_app2 by (rewrite app_length; cbn; lia). rewrite app_length. cbn [length]. replace (S (length before) - (length before + 1)) with 0 by lia. destruct L; [congruence|reflexivity]. }
    rewrite Q1, EC. exists it2. split; [reflexivity|]. rewrite app_length in Q2. cbn [length] in Q2 |- *. replace (length before + S (length L) - 1) with (length before + 1 + length L - 1) by lia. exact Q2.
  - destruct (packed_for false a) eqn:Ep.
    + destruct (G RPacked [] EC) as (it1 & -> & B & R'). inversion R'; subst L. cbn [c_role col]. now apply (S1 RPacked).
    + destruct (G RStruct _ EC) as (it1 & -> & B & R'). cbn [c_role col].
      replace (before ++ (i :: L) ++ after) with ((before ++ [i]) ++ L ++ after) in * by (now rewrite <- app_assoc).
      destruct (legacy_all_reads cs IH' cols (before ++ [i]) L after it1 R') as (it2 & Q1 & Q2).
      { rewrite app_length. cbn [length]. now replace (length before + 1 - 1) with (length before) by lia. }
      { rewrite app_length. cbn. lia. }
      rewrite Q1, EC. exists it2. split; [reflexivity|]. rewrite app_length in Q2. cbn [length] in Q2 |- *. replace (length before + S (length L) - 1) with (length before + 1 - 1 + length L) by lia. exact Q2.
Qed.

Fixpoint struct_all (cs : list field) (it : iter) : option (list (nat * nat) * iter) :=
  match cs with
  | [] => Some ([], it)
  | x :: t =>
      match structural_scheduler x it with
      | Some (r, it1) => match struct_all t it1 with Some (r2, it2) => Some (r ++ r2, it2) | None => None end
      | None => None
      end
  end.
Lemma struct_eq : forall a cs it, structural_scheduler (Fld a cs) it =
  (let leaf := match it_next it with Some (_, p, it1) => Some ([(at_id a, p)], next_top it1) | None => None end in
   match at_kind a with
   | KLeaf => leaf
   | KList => match cs with x :: _ => structural_scheduler x it | [] => None end
   | KStruct => if is_packed a then leaf else struct_all cs it
   end).
Proof. reflexivity. Qed.
Definition start_at (cols : list column) (idx : list nat) (k : nat) (it : iter) : Prop :=
  at_ cols idx k it /\ ci_pos it = match nth_error idx k with Some i => i | None => length cols end.
Definition struct_reads (f : field) : Prop := forall cols before L after it, Forall2 (finds cols) (columns_of true f) L ->
  start_at cols (before ++ L ++ after) (length before) it ->
  exists it', structural_scheduler f it = Some (combine (owners (columns_of true f)) L, it') /\ start_at cols (before ++ L ++ after) (length before + length L) it'.
Lemma struct_all_reads : forall cs, Forall struct_reads cs -> forall cols before L after it, Forall2 (finds cols) (flat_map (columns_of true) cs) L ->
  start_at cols (before ++ L ++ after) (length before) it ->
  exists it', struct_all cs it = Some (combine (owners (flat_map (columns_of true) cs)) L, it') /\ start_at cols (before ++ L ++ after) (length before + length L) it'.
Proof.
  intros cs F. induction F as [|f t Hf F IH]; intros cols before L after it R A; cbn [flat_map] in R.
  - inversion R; subst L. exists it. split; [reflexivity|]. cbn [length]. now rewrite Nat.add_0_r.
  - apply Forall2_app_inv_l in R as (L1 & L2 & R1 & R2 & ->). pose proof (Forall2_len _ _ _ R1) as E1.
    replace (before ++ (L1 ++ L2) ++ after) with (before ++ L1 ++ (L2 ++ after)) in * by now rewrite <- app_assoc.
    destruct (Hf cols before L1 (L2 ++ after) it R1 A) as (it1 & Q1 & Q2).
    destruct (IH cols (before ++ L1) L2 after it1 R2) as (it2 & Q3 & Q4); [now rewrite <- app_assoc, app_length|].
    exists it2. cbn [struct_all]. rewrite Q1, Q3. split.
    + unfold owners. cbn [flat_map]. rewrite map_app, combine_app2 by (rewrite map_length; exact E1). reflexivity.
    + rewrite <- app_assoc, app_length in Q4. now rewrite app_length, Nat.add_assoc.
Qed.
Theorem struct_exact : forall f, f_ok f -> struct_reads f.
Proof.
  intros f. induction f as [a cs IH] using field_ind'. intros W. apply f_ok_iff in W as [K W]. intros cols before L after it R A.
  assert (IH' : Forall struct_reads cs) by (apply Forall_forall; intros c Hc; rewrite Forall_forall in IH, W; auto).
  assert (S1 : forall r, columns_of true (Fld a cs) = [col a r] -> exists it',
             match it_next it with Some (_, p, it1) => Some ([(at_id a, p)], next_top it1) | None => None end = Some (combine (owners (columns_of true (Fld a cs))) L, it') /\
             start_at cols (before ++ L ++ after) (length before + length L) it').
  { intros r E. rewrite E in *. destruct L as [|i [|? ?]]; [now inversion R| |inversion R as [|? ? ? ? ? R2]; now inversion R2]. assert (R0 : finds cols (col a r) i) by now inversion R. clear R. rename R0 into R. destruct A as [A P].
    rewrite nth_error_app2, Nat.sub_diag in P by lia. cbn in P. destruct (it_next_at cols _ _ it (col a r) A) as (it1 & B1 & B2); [now rewrite P|]. rewrite B1, P. cbn [owners map combine].
    exists (next_top it1). split; [reflexivity|]. destruct (next_top_at _ _ _ _ B2) as [B3 B4]. cbn [length]. rewrite Nat.add_1_r. split; assumption. }
  rewrite struct_eq. cbn zeta. remember (columns_of true (Fld a cs)) as C eqn:EC. cbn [columns_of] in EC. destruct (at_kind a) eqn:Ek.
  - now apply (S1 RLeaf).
  - destruct cs as [|c [|? ?]]; try discriminate. cbn [flat_map] in EC. rewrite app_nil_r in EC. subst C. apply Forall_cons_iff in IH' as [IH' _]. now apply IH'.
  - cbn [packed_for] in EC. destruct (is_packed a); [now apply (S1 RPacked)|]. subst C. now apply struct_all_reads.
Qed.

(* ---- reading with a list of indices ---- *)
Lemma distinct_true : forall l, NoDup l -> distinct l = true.
Proof.
  induction 1 as [|x t A N IH]; [reflexivity|]. cbn. rewrite IH, andb_true_r. apply negb_true_iff. destruct (existsb (Nat.eqb x) t) eqn:E; [|reflexivity].
  apply existsb_exists in E as (y & Hy & E). apply Nat.eqb_eq in E. now subst y.
Qed.
Lemma finds_bound : forall cols cs L, Forall2 (finds cols) cs L -> forallb (fun i => i <? length cols) L = true.
Proof. intros cols cs L F. induction F as [|c i cs L H F IH]; [reflexivity|]. cbn [forallb]. rewrite IH, andb_true_r. apply Nat.ltb_lt. apply nth_error_Some. unfold finds in H. congruence. Qed.
Theorem read_exact : forall s cols p L, Forall f_ok p -> p <> [] -> flat_map (columns_of s) p <> [] -> Forall2 (finds cols) (flat_map (columns_of s) p) L -> NoDup L ->
  read_columns s cols p L = Some (combine (owners (flat_map (columns_of s) p)) L).
Proof.
  intros s cols p L W NE NC F N. unfold read_columns, valid_projection. rewrite (distinct_true L N), (finds_bound _ _ _ F). destruct p as [|f0 p0] eqn:Ep; [congruence|]. rewrite <- Ep in *. cbn [andb].
  destruct L as [|i L]; [inversion F; congruence|]. destruct s.
  - cbn [it_new obind]. rewrite struct_eq. cbn [at_kind root is_packed at_legacy]. 
    destruct (struct_all_reads p) with (cols := cols) (before := @nil nat) (L := i :: L) (after := @nil nat) (it := {| ci_cols := cols; ci_idx := i :: L; ci_pos := i; ci_ip := 0 |}) as (it' & Q & _).
    + apply Forall_forall. intros f Hf. apply struct_exact. rewrite Forall_forall in W. auto.
    + exact F.
    + rewrite app_nil_r. now repeat split.
    + now rewrite Q.
  - cbn [it_new obind]. set (cols' := {| c_owner := 0; c_role := RStruct |} :: cols). set (idx' := 0 :: map S (i :: L)).
    destruct (legacy_exact (Fld root p)) with (cols := cols') (before := @nil nat) (L := idx') (after := @nil nat) (it := {| ci_cols := cols'; ci_idx := idx'; ci_pos := 0; ci_ip := 0 |}) as (it' & Q & _).
    + apply f_ok_iff. cbn. auto.
    + cbn [columns_of root at_kind packed_for packed20 at_legacy at_new]. constructor; [reflexivity|]. clear - F. induction F; constructor; auto.
    + rewrite app_nil_r. now repeat split.
    + reflexivity.
    + rewrite Q. cbn [omap fst columns_of root at_kind packed_for packed20 at_legacy at_new]. unfold idx'. cbn [owners map combine tl c_owner col root at_id]. f_equal. clear.
      change (map c_owner (flat_map (columns_of false) p)) with (owners (flat_map (columns_of false) p)). change (S i :: map S L) with (map S (i :: L)). generalize (owners (flat_map (columns_of false) p)) as o. generalize (i :: L) as l.
      induction l as [|x l IH]; intros [|y o]; try reflexivity. cbn. now rewrite Nat.sub_0_r, IH.
Qed.

(* ---- projections by field id ---- *)
Lemma owners_nodup : forall s fs, Forall f_ok fs -> NoDup (ids fs) -> NoDup (owners (flat_map (columns_of s) fs)) /\ (forall x, In x (owners (flat_map (columns_of s) fs)) -> ~ In x (flat_map (bare s) fs)).
Proof.
  intros s fs W N. apply (Permutation_NoDup (schema_split s fs W)) in N. revert N. generalize (owners (flat_map (columns_of s) fs)) as a, (flat_map (bare s) fs) as b. clear.
  induction a as [|x a IH]; intros b N; [split; [constructor|intros x []]|]. cbn in N. apply NoDup_cons_iff in N as [A N]. destruct (IH b N) as [B C]. split.
  - constructor; [|exact B]. intros H. apply A. apply in_or_app. auto.
  - intros y [<-|Hy] Hb; [apply A; apply in_or_app; auto|now apply (C y)].
Qed.
Definition where_ (m : mapping) (id : nat) : nat := match lookup m id with Some i => i | None => 0 end.
Lemma finds_where : forall cols c, NoDup (owners cols) -> In c cols -> lookup (map_of (numbered 0 cols)) (c_owner c) = Some (where_ (map_of (numbered 0 cols)) (c_owner c)) /\
  finds cols c (where_ (map_of (numbered 0 cols)) (c_owner c)).
Proof.
  intros cols c N Hc. apply In_nth_error in Hc as (k & Hk). pose proof (in_map_of 0 cols k c Hk) as X. apply lookup_in in X; [|now rewrite fst_map_of]. unfold where_. rewrite X. split; [reflexivity|exact Hk].
Qed.
Lemma finds_all : forall cols cs, NoDup (owners cols) -> incl cs cols -> Forall2 (finds cols) cs (map (where_ (map_of (numbered 0 cols))) (owners cs)).
Proof. intros cols cs N. induction cs as [|c t IH]; intros H; cbn [owners map]; constructor; [apply finds_where; auto; apply H; now left|]. apply IH. intros x Hx. apply H. now right. Qed.
Lemma where_nodup : forall cols cs, NoDup (owners cols) -> incl cs cols -> NoDup (owners cs) -> NoDup (map (where_ (map_of (numbered 0 cols))) (owners cs)).
Proof.
  intros cols cs N I N2. induction cs as [|c t IH]; [constructor|]. cbn [owners map] in *. apply NoDup_cons_iff in N2 as [A B]. constructor; [|apply IH; [intros x Hx; apply I; now right|exact B]].
  intros H. apply A. unfold owners in H. rewrite map_map in H. apply in_map_iff in H as (d & E & Hd). destruct (finds_where cols c N (I c (or_introl eq_refl))) as [_ F1]. destruct (finds_where cols d N (I d (or_intror Hd))) as [_ F2].
  rewrite E in F2. unfold finds in *. assert (c = d) as -> by congruence. now apply in_map.
Qed.
Lemma ids_indices : forall s fs p, Forall f_ok fs -> NoDup (ids fs) -> Forall f_ok p -> parts p fs -> (s = true -> no_packed true p) ->
  from_field_ids s (map_of (numbered 0 (flat_map (columns_of s) fs))) p = map (where_ (map_of (numbered 0 (flat_map (columns_of s) fs)))) (owners (flat_map (columns_of s) p)).
Proof.
  intros s fs p W N Wp P NP. set (cols := flat_map (columns_of s) fs). destruct (owners_nodup s fs W N) as [N1 N2].
  pose proof (parts_incl (columns_of s) p fs (part_columns s) P) as I1. pose proof (parts_incl (bare s) p fs (part_bare s) P) as I2.
  unfold from_field_ids, owners. rewrite !map_flat. apply flat_map_same. intros f Hf. rewrite Forall_forall in Wp. rewrite (from_field_exact s _ (where_ (map_of (numbered 0 cols))) f (Wp f Hf)); [reflexivity| | |].
  - intros E g Hg. apply (NP E). apply in_flat_map in Hg as (h & [<-|[]] & Hg). apply in_flat_map. eauto.
  - intros c Hc. apply finds_where; [exact N1|]. apply I1. apply in_flat_map. eauto.
  - intros x Hx. apply lookup_out. rewrite fst_map_of. intros H. apply (N2 x H). apply I2. apply in_flat_map. eauto.
Qed.
(* the columns read: for each column of the projection the one the file has for its field *)
Definition right_columns (s : bool) (fs p : list field) (r : list (nat * nat)) : Prop :=
  Forall2 (fun c x => fst x = c_owner c /\ nth_error (flat_map (columns_of s) fs) (snd x) = Some c) (flat_map (columns_of s) p) r.
Lemma right_combine : forall cols cs L, Forall2 (finds cols) cs L -> Forall2 (fun c (x : nat * nat) => fst x = c_owner c /\ nth_error cols (snd x) = Some c) cs (combine (owners cs) L).
Proof. intros cols cs L F. induction F; cbn; constructor; auto. Qed.
Theorem ids_exact : forall s fs p, Forall f_ok fs -> NoDup (ids fs) -> Forall f_ok p -> NoDup (ids p) -> parts p fs -> (s = true -> no_packed true p) ->
  flat_map (columns_of s) p <> [] -> exists r, read_ids s fs p = Some r /\ right_columns s fs p r.
Proof.
  intros s fs p W N Wp Np P NP NE. unfold read_ids. rewrite (written_exact s fs W). cbn [obind fst snd]. rewrite (ids_indices s fs p W N Wp P NP).
  destruct (owners_nodup s fs W N) as [N1 _]. destruct (owners_nodup s p Wp Np) as [N2 _]. pose proof (parts_incl (columns_of s) p fs (part_columns s) P) as I1.
  pose proof (finds_all _ _ N1 I1) as F. rewrite (read_exact s _ p _ Wp); [|now intros ->|exact NE|exact F|now apply where_nodup].
  eexists. split; [reflexivity|]. now apply right_combine.
Qed.
(* every leaf that is not in a packed struct has a column of its own *)
Lemma leaf_column : forall s f a cs, f_ok f -> no_packed s [f] -> In (Fld a cs) (pre f) -> at_kind a = KLeaf -> In (col a RLeaf) (columns_of s f).
Proof.
  intros s f. induction f as [b ds IH] using field_ind'. intros a cs W NP H K. apply f_ok_iff in W as [Kb W].
  assert (X : In (Fld a cs) (flat_map pre ds) -> In (col a RLeaf) (flat_map (columns_of s) ds)).
  { intros Hi. apply in_flat_map in Hi as (d & Hd & Hi). apply in_flat_map. exists d. split; [exact Hd|]. rewrite Forall_forall in IH, W. apply (IH d Hd a cs (W d Hd)); auto.
    intros g Hg. apply NP. unfold pre_order in *. cbn [flat_map pre] in *. rewrite app_nil_r in *. right. apply in_flat_map. eauto. }
  cbn [pre] in H. cbn [columns_of]. destruct H as [E|H].
  - injection E as -> ->. rewrite K. now left.
  - specialize (X H). destruct (at_kind b) eqn:Eb; [subst ds; destruct H| |].
    + destruct s; [exact X|now right].
    + assert (Ep : packed_for s b = false). { apply (NP (Fld b ds)); [|exact Eb]. unfold pre_order. cbn [flat_map pre]. now left. }
      rewrite Ep. destruct s; [exact X|now right].
Qed.
Theorem leaves_exact : forall s fs p, Forall f_ok fs -> NoDup (ids fs) -> Forall f_ok p -> NoDup (ids p) -> parts p fs -> no_packed s p -> flat_map (columns_of s) p <> [] ->
  exists r cols m, written s fs = Some (cols, m) /\ read_ids s fs p = Some r /\
  forall f, In f (pre_order p) -> at_kind (f_attrs f) = KLeaf -> exists i, In (f_id f, i) r /\ nth_error cols i = Some (col (f_attrs f) RLeaf) /\ forall j, In (f_id f, j) r -> j = i.
Proof.
  intros s fs p W N Wp Np P NP NE. destruct (ids_exact s fs p W N Wp Np P) as (r & R1 & R2); [intros ->; exact NP|exact NE|]. exists r. do 2 eexists. split; [apply (written_exact s fs W)|]. split; [exact R1|].
  destruct (owners_nodup s p Wp Np) as [N2 _]. intros [a cs] Hf K. unfold f_id. cbn [f_attrs] in *.
  assert (Hc : In (col a RLeaf) (flat_map (columns_of s) p)).
  { apply in_flat_map in Hf as (g & Hg & Hf). apply in_flat_map. exists g. split; [exact Hg|]. rewrite Forall_forall in Wp. apply (leaf_column s g a cs); auto. intros h Hh. apply NP. apply in_flat_map in Hh as (h' & [<-|[]] & Hh). apply in_flat_map. eauto. }
  unfold right_columns in R2. revert R2 Hc N2. generalize (flat_map (columns_of s) p) as C. clear. induction r as [|[x i] r IH]; intros C R Hc N; [inversion R; subst; destruct Hc|].
  inversion R as [|c ? C' ? [E1 E2] R']; subst. cbn [fst snd owners map] in *. apply NoDup_cons_iff in N as [A N]. 
  assert (Out : forall y j, In (y, j) r -> In y (owners C')).
  { clear - R'. intros y j H. induction R' as [|c x C r [E _] R IH]; [destruct H|]. destruct H as [->|H]; [left; now rewrite <- E|right; auto]. }
  destruct Hc as [->|Hc].
  - exists i. split; [left; now rewrite E1|]. split; [exact E2|]. intros j [E|H]; [congruence|]. exfalso. apply A. cbn [c_owner col] in *. now apply (Out _ j).
  - destruct (IH C' R' Hc N) as (k & B1 & B2 & B3). exists k. split; [now right|]. split; [exact B2|]. intros j [E|H]; [|auto]. injection E as E _. exfalso. apply A. rewrite <- E1, E. exact (Out _ _ B1).
Qed.
