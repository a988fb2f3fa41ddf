(* Reading with the whole schema, by column names, and files taken over from elsewhere (ColMapModel), with the schemas
   for which these go wrong. *)
From Coq Require Import List Arith Bool Lia Permutation.
From Verif Require Import Lib ColMapModel ColMapProofs.
Import ListNotations.

(* ---- the whole schema ---- *)
(* the reader's idea of packed is the writer's, the children of packed structs have no children, and in version 2.1
   structs are not empty *)
Definition plain_here (s : bool) (f : field) : Prop :=
  match at_kind (f_attrs f) with
  | KStruct => is_packed (f_attrs f) = packed_for s (f_attrs f)
               /\ (if packed_for s (f_attrs f) then forall c, In c (f_children f) -> f_children c = [] else s = true -> f_children f <> [])
  | _ => is_packed (f_attrs f) = false
  end.
Definition plain (s : bool) (fs : list field) : Prop := forall f, In f (pre_order fs) -> plain_here s f.
Lemma plain_cons : forall s f fs, plain s (f :: fs) -> plain s [f] /\ plain s fs.
Proof. intros s f fs H. split; intros g Hg; apply H; unfold pre_order in *; cbn [flat_map] in *; rewrite ?app_nil_r in *; apply in_or_app; auto. Qed.
Lemma plain_below : forall s a cs, plain s [Fld a cs] -> plain_here s (Fld a cs) /\ plain s cs.
Proof. intros s a cs H. split; [apply H; now left|]. intros g Hg. apply H. unfold pre_order in *. cbn [flat_map pre]. rewrite app_nil_r. now right. Qed.
Lemma whole_skip : forall s l rest cur, whole s (l ++ rest) (length l) cur = whole s rest 0 cur.
Proof. induction l as [|x l IH]; intros rest cur; [reflexivity|]. cbn [app length whole]. apply IH. Qed.
Lemma flat_pre : forall cs, (forall c, In c cs -> f_children c = []) -> flat_map pre cs = cs.
Proof. induction cs as [|[a ds] t IH]; intros H; [reflexivity|]. cbn [flat_map pre]. specialize (H (Fld a ds) (or_introl eq_refl)) as X. cbn in X. subst ds. cbn. f_equal. apply IH. intros c Hc. apply H. now right. Qed.
Definition whole_reads (s : bool) (f : field) : Prop := plain s [f] -> forall rest cur,
  whole s (pre f ++ rest) 0 cur = seq cur (length (columns_of s f)) ++ whole s rest 0 (cur + length (columns_of s f)).
Lemma whole_all : forall s fs, Forall (whole_reads s) fs -> plain s fs -> forall rest cur,
  whole s (pre_order fs ++ rest) 0 cur = seq cur (length (flat_map (columns_of s) fs)) ++ whole s rest 0 (cur + length (flat_map (columns_of s) fs)).
Proof.
  intros s fs F. induction F as [|f t X F IH]; intros P rest cur; [cbn; now rewrite Nat.add_0_r|]. apply plain_cons in P as [P0 P].
  unfold pre_order in *. cbn [flat_map]. rewrite <- app_assoc, (X P0), (IH P), app_length, seq_app, <- app_assoc, Nat.add_assoc. reflexivity.
Qed.
Lemma whole_exact : forall s f, f_ok f -> whole_reads s f.
Proof.
  intros s f. induction f as [a cs IH] using field_ind'. intros W P rest cur. apply f_ok_iff in W as [K W]. apply plain_below in P as [H P]. unfold plain_here in H. cbn [f_attrs f_children] in H.
  assert (IH' : Forall (whole_reads s) cs) by (apply Forall_forall; intros c Hc; rewrite Forall_forall in IH, W; auto). pose proof (whole_all s cs IH' P) as X. unfold pre_order in X.
  cbn [pre app whole f_attrs f_children columns_of]. destruct (at_kind a).
  - subst cs. rewrite H. cbn. now rewrite Nat.add_1_r.
  - rewrite H. destruct cs as [|c [|? ?]]; try discriminate. destruct s; cbn [orb negb].
    + apply X.
    + cbn [length seq app]. rewrite X, Nat.add_succ_r. reflexivity.
  - destruct H as [E H]. rewrite E. destruct (packed_for s a).
    + rewrite (flat_pre cs H), whole_skip. cbn. now rewrite Nat.add_1_r.
    + destruct s; cbn [orb negb].
      * destruct cs as [|c t]; [now destruct H|]. apply X.
      * destruct cs as [|c t]; cbn [orb negb]; rewrite X; cbn [length seq app]; rewrite Nat.add_succ_r; reflexivity.
Qed.
Theorem whole_indices : forall s fs, Forall f_ok fs -> plain s fs -> from_whole_schema s fs = seq 0 (length (flat_map (columns_of s) fs)).
Proof.
  intros s fs W P. unfold from_whole_schema. rewrite <- (app_nil_r (pre_order fs)), whole_all; [cbn; apply app_nil_r| |exact P].
  apply Forall_forall. intros f Hf. apply whole_exact. rewrite Forall_forall in W. auto.
Qed.
Lemma finds_seq : forall a b, Forall2 (finds (a ++ b)) b (seq (length a) (length b)).
Proof.
  intros a b. revert a. induction b as [|c b IH]; intros a; cbn [length seq]; constructor.
  - unfold finds. rewrite nth_error_app2, Nat.sub_diag by lia. reflexivity.
  - specialize (IH (a ++ [c])). rewrite <- app_assoc, app_length in IH. cbn in IH. now rewrite Nat.add_1_r in IH.
Qed.
Theorem whole_read : forall s fs, Forall f_ok fs -> plain s fs -> flat_map (columns_of s) fs <> [] -> exists r, read_whole s fs = Some r /\ right_columns s fs fs r.
Proof.
  intros s fs W P NE. unfold read_whole. rewrite (written_exact s fs W). cbn [obind fst snd]. rewrite (whole_indices s fs W P). pose proof (finds_seq [] (flat_map (columns_of s) fs)) as F. cbn [app length] in F.
  rewrite (read_exact s _ fs _ W); [|now intros ->|exact NE|exact F|apply seq_NoDup]. eexists. split; [reflexivity|]. now apply right_combine.
Qed.

(* ---- one column for each field ---- *)
(* version 2.0 without packed structs, version 2.1 without lists and structs *)
Definition one_each (s : bool) (fs : list field) : Prop :=
  if s then forall f, In f (pre_order fs) -> at_kind (f_attrs f) = KLeaf else no_packed false fs.
Lemma one_each_below : forall s a cs, one_each s [Fld a cs] -> one_each s cs.
Proof. intros s a cs H. destruct s; intros g Hg; apply H; unfold pre_order in *; cbn [flat_map pre]; rewrite app_nil_r; now right. Qed.
Lemma one_each_cons : forall s f fs, one_each s (f :: fs) -> one_each s [f] /\ one_each s fs.
Proof. intros s f fs H. destruct s; split; intros g Hg; apply H; unfold pre_order in *; cbn [flat_map] in *; rewrite ?app_nil_r in *; apply in_or_app; auto. Qed.
Lemma one_column : forall s f, f_ok f -> one_each s [f] -> owners (columns_of s f) = map f_id (pre f).
Proof.
  intros s f. induction f as [a cs IH] using field_ind'. intros W O. apply f_ok_iff in W as [K W]. pose proof (one_each_below _ _ _ O) as O'.
  assert (X : owners (flat_map (columns_of s) cs) = map f_id (flat_map pre cs)).
  { unfold owners. rewrite !map_flat. clear K O. induction cs as [|c t IHt]; [reflexivity|]. apply one_each_cons in O' as [O0 O']. apply Forall_cons_iff in IH as [I0 IH]. apply Forall_cons_iff in W as [W0 W].
    cbn [flat_map]. rewrite (IHt IH W O'). f_equal. now apply I0. }
  rewrite ids_cons. cbn [columns_of]. destruct (at_kind a) eqn:Ek.
  - subst cs. reflexivity.
  - destruct s; [specialize (O (Fld a cs) (or_introl eq_refl)); cbn in O; congruence|]. cbn [owners map c_owner col]. f_equal. exact X.
  - destruct s; [specialize (O (Fld a cs) (or_introl eq_refl)); cbn in O; congruence|]. pose proof (O (Fld a cs) (or_introl eq_refl) Ek) as Z. cbn [f_attrs] in Z. rewrite Z. cbn [owners map c_owner col]. f_equal. exact X.
Qed.
Lemma one_columns : forall s fs, Forall f_ok fs -> one_each s fs -> owners (flat_map (columns_of s) fs) = ids fs.
Proof.
  intros s fs W. unfold owners, ids, pre_order. rewrite !map_flat. induction W as [|f t W0 W IH]; intros O; [reflexivity|]. apply one_each_cons in O as [O0 O]. cbn [flat_map]. rewrite (IH O). f_equal. now apply one_column.
Qed.
Lemma part_in_pre : forall f g, part_of f g -> forall h, In h (pre f) -> exists h', In h' (pre g) /\ f_attrs h' = f_attrs h.
Proof.
  intros f. induction f as [a cs IH] using field_ind'. intros g H h Hh. inversion H as [a' cs' ds Hd]; subst. cbn [pre] in Hh. destruct Hh as [<-|Hh]; [exists (Fld a ds); split; [now left|reflexivity]|].
  apply in_flat_map in Hh as (c & Hc & Hh). destruct (Hd c Hc) as (d & Hin & P). rewrite Forall_forall in IH. destruct (IH c Hc d P h Hh) as (h' & A & B). exists h'. split; [|exact B]. cbn [pre]. right. apply in_flat_map. eauto.
Qed.
Lemma one_each_parts : forall s p fs, parts p fs -> one_each s fs -> one_each s p.
Proof.
  intros s p fs P O. assert (X : forall f, In f (pre_order p) -> exists g, In g (pre_order fs) /\ f_attrs g = f_attrs f).
  { intros f Hf. apply in_flat_map in Hf as (q & Hq & Hf). destruct (P q Hq) as (g & Hg & Q). destruct (part_in_pre q g Q f Hf) as (h & A & B). exists h. split; [|exact B]. apply in_flat_map. eauto. }
  destruct s; intros f Hf.
  - destruct (X f Hf) as (g & Hg & <-). now apply O.
  - intros K. destruct (X f Hf) as (g & Hg & E). rewrite <- E in *. now apply (O g).
Qed.
Lemma map_of_combine : forall n cols, map_of (numbered n cols) = combine (owners cols) (seq n (length cols)).
Proof. intros n cols. revert n. induction cols as [|c t IH]; intros n; [reflexivity|]. unfold numbered, map_of in *. cbn [length seq combine map owners fst snd]. now rewrite IH. Qed.
Lemma position_exact : forall s fs, Forall f_ok fs -> one_each s fs -> by_position fs = map_of (numbered 0 (flat_map (columns_of s) fs)).
Proof.
  intros s fs W O. rewrite map_of_combine, (one_columns s fs W O). unfold by_position, ids. f_equal. f_equal. rewrite <- (map_length c_owner). fold (owners (flat_map (columns_of s) fs)). rewrite (one_columns s fs W O). unfold ids. now rewrite map_length.
Qed.
Lemma all_some_map {A B} : forall (f : A -> option B) g l, (forall x, In x l -> f x = Some (g x)) -> all_some (map f l) = Some (map g l).
Proof. induction l as [|x t IH]; intros H; [reflexivity|]. cbn. rewrite (H x) by now left. rewrite IH; [reflexivity|]. intros y Hy. apply H. now right. Qed.
Theorem names_read : forall s fs p, Forall f_ok fs -> NoDup (ids fs) -> Forall f_ok p -> NoDup (ids p) -> parts p fs -> one_each s fs -> p <> [] ->
  exists r, read_names s fs p = Some r /\ right_columns s fs p r.
Proof.
  intros s fs p W N Wp Np P O NE. unfold read_names. rewrite (written_exact s fs W). cbn [obind fst snd]. unfold from_column_names. rewrite (position_exact s fs W O).
  destruct (owners_nodup s fs W N) as [N1 _]. destruct (owners_nodup s p Wp Np) as [N2 _]. pose proof (parts_incl (columns_of s) p fs (part_columns s) P) as I1. pose proof (one_each_parts s p fs P O) as Op.
  set (m := map_of (numbered 0 (flat_map (columns_of s) fs))). rewrite (all_some_map _ (fun f => where_ m (f_id f))).
  2:{ intros f Hf. assert (Hi : In (f_id f) (ids p)) by now apply in_map. rewrite <- (one_columns s p Wp Op) in Hi. apply in_map_iff in Hi as (c & <- & Hc). apply finds_where; auto. }
  cbn [obind]. rewrite <- (map_map f_id (where_ m)). change (map f_id (pre_order p)) with (ids p). rewrite <- (one_columns s p Wp Op).
  pose proof (finds_all _ _ N1 I1) as F. assert (NE' : flat_map (columns_of s) p <> []).
  { intros E. pose proof (one_columns s p Wp Op) as X. rewrite E in X. destruct p as [|[a cs] t]; [congruence|discriminate X]. }
  unfold m. rewrite (read_exact s _ p _ Wp NE NE' F); [|now apply where_nodup]. eexists. split; [reflexivity|]. now apply right_combine.
Qed.
Lemma one_plain : forall s fs, Forall f_ok fs -> one_each s fs -> (forall f, In f (pre_order fs) -> is_packed (f_attrs f) = false) -> plain s fs.
Proof.
  intros s fs W O NP f Hf. unfold plain_here. specialize (NP f Hf). destruct (at_kind (f_attrs f)) eqn:K; [exact NP|exact NP|]. destruct s.
  - specialize (O f Hf). congruence.
  - rewrite (O f Hf K). split; [exact NP|discriminate].
Qed.
Theorem adopted_read : forall s fs p, Forall f_ok fs -> NoDup (ids fs) -> Forall f_ok p -> NoDup (ids p) -> parts p fs -> one_each s fs ->
  (forall f, In f (pre_order fs) -> is_packed (f_attrs f) = false) -> p <> [] -> exists r, read_adopted s fs p = Some r /\ right_columns s fs p r.
Proof.
  intros s fs p W N Wp Np P O NP NE. pose proof (one_plain s fs W O NP) as PL. pose proof (one_each_parts s p fs P O) as Op.
  assert (E : adopted s fs = map_of (numbered 0 (flat_map (columns_of s) fs))).
  { unfold adopted. rewrite (whole_indices s fs W PL), map_of_combine, (one_columns s fs W O). reflexivity. }
  assert (NE' : flat_map (columns_of s) p <> []).
  { intros E'. pose proof (one_columns s p Wp Op) as X. rewrite E' in X. destruct p as [|[a cs] t]; [congruence|discriminate X]. }
  destruct (ids_exact s fs p W N Wp Np P) as (r & R1 & R2); [|exact NE'|].
  - intros -> f Hf K. specialize (Op f Hf). congruence.
  - exists r. split; [|exact R2]. unfold read_adopted. unfold read_ids in R1. rewrite (written_exact s fs W) in *. cbn [obind fst snd] in *. now rewrite E.
Qed.

(* ---- schemas for which it goes wrong ---- *)
Definition at_ (id : nat) (k : kind) : attrs := {| at_id := id; at_kind := k; at_legacy := None; at_new := false |}.
Definition leaf (id : nat) : field := Fld (at_ id KLeaf) [].
Definition struct_ (id : nat) (cs : list field) : field := Fld (at_ id KStruct) cs.
Definition packed_ (v : option pval) (new : bool) (id : nat) (cs : list field) : field := Fld {| at_id := id; at_kind := KStruct; at_legacy := v; at_new := new |} cs.
Definition ok_schema (fs : list field) : Prop := Forall f_ok fs /\ NoDup (ids fs).
(* a packed struct of version 2.1 has a column, but no index in a projection by field ids *)
Ltac ok_now := split; [repeat (apply Forall_cons || apply Forall_nil); cbn; intuition|cbn; repeat (apply NoDup_cons || apply NoDup_nil); cbn; intuition discriminate].
Lemma part_refl : forall f, part_of f f.
Proof. intros f. induction f as [a cs IH] using field_ind'. constructor. intros c Hc. exists c. split; [exact Hc|]. rewrite Forall_forall in IH. auto. Qed.
Ltac parts_now := intros f Hf; exists f; split; [cbn [In] in *; intuition|apply part_refl].
Theorem ids_packed_refuted : exists fs, ok_schema fs /\ (exists w, written true fs = Some w) /\ read_ids true fs fs = None.
Proof.
  exists [packed_ (Some PTrue) false 1 [leaf 2; leaf 3]]. split; [ok_now|]. split; [eexists; reflexivity|reflexivity].
Qed.
(* the key "lance-encoding:packed" (version 2.0): written packed, not known to the reader of the whole schema *)
Theorem whole_new_key_refuted : exists fs, ok_schema fs /\ (exists r, read_ids false fs fs = Some r /\ right_columns false fs fs r) /\ read_whole false fs = None.
Proof.
  exists [packed_ None true 1 [leaf 2; leaf 3]; leaf 4]. split; [ok_now|]. split; [|reflexivity].
  eexists. split; [reflexivity|]. repeat constructor.
Qed.
(* the key "packed" with another spelling of true (version 2.0): not written packed, but packed for that reader *)
Theorem whole_case_refuted : exists fs, ok_schema fs /\ (exists r, read_ids false fs fs = Some r /\ right_columns false fs fs r) /\ read_whole false fs = None.
Proof.
  exists [packed_ (Some PTrueCase) false 1 [leaf 2; leaf 3]; leaf 4]. split; [ok_now|]. split; [|reflexivity].
  eexists. split; [reflexivity|]. repeat constructor.
Qed.
(* a packed struct with a struct inside: only the children are passed over, not what is below them *)
Theorem whole_nested_refuted : exists fs, ok_schema fs /\ (forall f, In f (pre_order fs) -> is_packed (f_attrs f) = packed20 (f_attrs f)) /\
  (exists r, read_ids false fs fs = Some r /\ right_columns false fs fs r) /\ read_whole false fs = None /\ read_whole true fs = None.
Proof.
  exists [packed_ (Some PTrue) false 1 [struct_ 2 [leaf 3]]; leaf 4]. split; [ok_now|]. split; [intros f Hf; cbn in Hf; intuition; now subst f|]. split; [|split; reflexivity].
  eexists. split; [reflexivity|]. repeat constructor.
Qed.
(* an empty struct of version 2.1 has no column, but is given an index *)
Theorem whole_empty_refuted : exists fs, ok_schema fs /\ no_packed true fs /\ (exists r, read_ids true fs fs = Some r /\ right_columns true fs fs r) /\ read_whole true fs = None.
Proof.
  exists [struct_ 1 []; leaf 2]. split; [ok_now|]. split; [intros f Hf; cbn in Hf; intuition; now subst f|]. split; [|reflexivity].
  eexists. split; [reflexivity|]. repeat constructor.
Qed.
(* and a projection to it alone cannot be read *)
Theorem ids_empty_refuted : exists fs p, ok_schema fs /\ ok_schema p /\ parts p fs /\ no_packed true fs /\ p <> [] /\ read_ids true fs p = None.
Proof.
  exists [leaf 2; struct_ 1 []], [struct_ 1 []]. split; [ok_now|]. split; [ok_now|]. split; [parts_now|]. split; [intros f Hf; cbn in Hf; intuition; now subst f|]. split; [discriminate|reflexivity].
Qed.
(* wrong values: the columns of another field are read, and nothing is reported *)
Definition wrong (s : bool) (read : bool -> list field -> list field -> option (list (nat * nat))) : Prop :=
  exists fs p cols m x i c, ok_schema fs /\ ok_schema p /\ parts p fs /\ written s fs = Some (cols, m) /\ read s fs p = Some [(x, i)] /\
  nth_error cols i = Some c /\ c_role c = RLeaf /\ c_owner c <> x /\ exists r, read_ids s fs p = Some r /\ right_columns s fs p r.
Theorem adopted_21_refuted : wrong true read_adopted.
Proof.
  exists [struct_ 1 [leaf 2]; leaf 3], [struct_ 1 [leaf 2]]. do 5 eexists. split; [ok_now|]. split; [ok_now|]. split; [parts_now|]. split; [reflexivity|]. split; [reflexivity|].
  split; [reflexivity|]. split; [reflexivity|]. split; [discriminate|]. eexists. split; [reflexivity|]. repeat constructor.
Qed.
Theorem adopted_20_refuted : wrong false read_adopted.
Proof.
  exists [packed_ (Some PTrue) false 1 [leaf 2]; leaf 3; leaf 4], [leaf 3]. do 5 eexists. split; [ok_now|]. split; [ok_now|]. split; [parts_now|]. split; [reflexivity|]. split; [reflexivity|].
  split; [reflexivity|]. split; [reflexivity|]. split; [discriminate|]. eexists. split; [reflexivity|]. repeat constructor.
Qed.
Theorem names_21_refuted : wrong true read_names.
Proof.
  exists [struct_ 1 [leaf 2]; leaf 3; leaf 4], [leaf 3]. do 5 eexists. split; [ok_now|]. split; [ok_now|]. split; [parts_now|]. split; [reflexivity|]. split; [reflexivity|].
  split; [reflexivity|]. split; [reflexivity|]. split; [discriminate|]. eexists. split; [reflexivity|]. repeat constructor.
Qed.
Theorem names_20_refuted : wrong false read_names.
Proof.
  exists [packed_ (Some PTrue) false 1 [leaf 2]; leaf 3; leaf 4], [leaf 3]. do 5 eexists. split; [ok_now|]. split; [ok_now|]. split; [parts_now|]. split; [reflexivity|]. split; [reflexivity|].
  split; [reflexivity|]. split; [reflexivity|]. split; [discriminate|]. eexists. split; [reflexivity|]. repeat constructor.
Qed.
