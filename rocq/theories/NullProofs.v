(* C101: adding columns of nulls. *)
From Coq Require Import List Arith NArith ZArith Bool Lia String.
From Verif Require Import Lib RowIdsModel SerdeModel ReadParamsModel DeletionModel FragReadModel FragReadProofs SchemaModel SchemaProofs ProjModel ProjProofs AddColsModel AddColsProofs AlterModel AlterProofs JoinModel JoinProofs JoinData NullModel.
Import ListNotations.
Open Scope list_scope.
Local Open Scope nat_scope.

Lemma clash_iff : forall old out, names_clash old out = false <-> forall f g, In f old -> In g out -> r_name f <> r_name g.
Proof.
  intros old out. unfold names_clash. rewrite <- not_true_iff_false, existsb_exists. split.
  - intros H f g Jf Jg E. apply H. exists f. split; [exact Jf|]. apply existsb_exists. exists (r_name g). split; [apply in_map; exact Jg|]. apply String.eqb_eq. auto.
  - intros H (f & Jf & E). apply existsb_exists in E as (n & J & E). apply String.eqb_eq in E. apply in_map_iff in J as (g & Eg & Jg). exact (H f g Jf Jg (eq_trans (eq_sym E) (eq_sym Eg))).
Qed.
Lemma max_ge : forall {V} (old : list rfield) (fs : list (cfrag V)) f x i, In f fs -> In x (cf_files f) -> In i (fi_ids x) -> (i <= max_field_id old fs)%Z.
Proof.
  intros V old fs f x i Jf Jx Ji. unfold max_field_id. enough (i <= fold_right Z.max (-1) (flat_map (fun f => flat_map fi_ids (cf_files f)) fs))%Z by lia.
  apply fold_max_le. apply in_flat_map. exists f. split; [exact Jf|]. apply in_flat_map. eauto.
Qed.
(* an accepted call changes no fragment; the new fields come last, under ids of their own, and are null in every row *)
Theorem nulls_sound : forall {V} (null : V) legacy old fs out gs final, valid old -> Forall (placed (-1)) old -> NoDup (map r_name out) ->
  add_nulls legacy old fs out = Ok (gs, final) ->
  gs = fs /\ extended old (max_field_id old fs) out final /\
  (forall f g o, In f gs -> In g (fields_pre_order final) -> ~ In g (fields_pre_order old) -> column null f (r_id g) o = null) /\
  forall g, In g (fields_pre_order old) -> In g (fields_pre_order final).
Proof.
  intros V null legacy old fs out gs final Va P N H. unfold add_nulls in H. destruct (names_clash old out) eqn:C; [discriminate|]. destruct (negb (all_nullable out)); [discriminate|].
  destruct (existsb _ fs); [discriminate|]. apply obnd_ok in H as (s & S & H). injection H as <- <-.
  assert (D := proj1 (clash_iff old out) C).
  assert (Dj : forall f g, In f old -> In g (map reset_id out) -> r_name f <> r_name g) by (intros f g Jf Jg; apply in_map_iff in Jg as (g0 & <- & Jg); rewrite reset_name; auto).
  unfold schema_merge in S. cbv zeta in S. rewrite merge_disjoint in S by (auto; apply Va). cbn [obnd] in S. injection S as <-.
  rewrite push_disjoint by (auto; rewrite map_map, (map_ext _ _ reset_name); exact N).
  pose proof (extend_ok old (max_field_id old fs) out Va P) as E. split; [reflexivity|]. split; [exact E|]. destruct E as (news & E & _ & _ & _ & G). rewrite E. unfold fields_pre_order. rewrite flat_map_app. split.
  - intros f g o Jf Jg Nj. apply in_app_or in Jg as [Jg|Jg]; [contradiction|]. unfold column.
    destruct (find _ (cf_files f)) as [x|] eqn:F; [|reflexivity]. exfalso. apply find_some in F as [Jx M]. apply memZ_In in M.
    pose proof (max_ge old fs f x _ Jf Jx M) as L. assert (J : In (r_id g) (r_field_ids news)) by (apply in_map; exact Jg). apply G in J. lia.
  - intros g J. apply in_or_app. auto.
Qed.
(* when it is accepted *)
Theorem nulls_total : forall {V} legacy old (fs : list (cfrag V)) out, valid old -> 
  ((exists r, add_nulls legacy old fs out = Ok r) <->
   (forall f g, In f old -> In g out -> r_name f <> r_name g) /\ (forall g, In g (fields_pre_order out) -> a_null (r_attrs g) = true) /\
   forall f x, In f fs -> In x (cf_files f) -> legacy x = false).
Proof.
  intros V legacy old fs out Va. unfold add_nulls. split.
  - intros (r & H). destruct (names_clash old out) eqn:C; [discriminate|]. destruct (negb (all_nullable out)) eqn:A; [discriminate|].
    destruct (existsb _ fs) eqn:L; [discriminate|]. split; [apply clash_iff; exact C|]. apply negb_false_iff in A. unfold all_nullable in A. rewrite forallb_forall in A. split; [exact A|].
    intros f x Jf Jx. apply not_true_iff_false. intros X. apply not_true_iff_false in L. apply L, existsb_exists. exists f. split; [exact Jf|]. apply existsb_exists. eauto.
  - intros (D & A & L). rewrite (proj2 (clash_iff old out) D). replace (all_nullable out) with true by (symmetry; apply forallb_forall; exact A). cbn [negb].
    replace (existsb _ fs) with false.
    + unfold schema_merge. cbv zeta. rewrite merge_disjoint; [cbn [obnd]; eauto|apply Va|]. intros f g Jf Jg. apply in_map_iff in Jg as (g0 & <- & Jg). rewrite reset_name. auto.
    + symmetry. apply not_true_iff_false. intros X. apply existsb_exists in X as (f & Jf & X). apply existsb_exists in X as (x & Jx & X). rewrite (L f x Jf Jx) in X. discriminate.
Qed.
Definition exn_frag : cfrag Z := {| cf_id := 0; cf_phys := 2; cf_del := NoDel; cf_files := [{| fi_ids := [0; 1; 4]%Z; fi_col := fun i o => (i * 10 + Z.of_nat o)%Z |}] |}.
Definition exn_struct : rfield := RF (Build_attrs "p" 0 (-1) "struct" [] None true None SDefault) [ex_leaf "q" "int64" 1].
Example ex_nulls : exists final, add_nulls (fun _ => false) ex_old [exn_frag] [exn_struct; ex_leaf "r" "string" 9] = Ok ([exn_frag], final) /\
  r_field_ids final = [0; 1; 5; 6; 7]%Z /\ column (-1)%Z exn_frag 1 1 = 11%Z /\ column (-1)%Z exn_frag 6 1 = (-1)%Z.
Proof. eexists. split; [vm_compute; reflexivity|]. vm_compute. auto. Qed.

(* a name with a dot is accepted, and afterwards refers to a field of another column *)
Theorem nulls_dotted_refuted : exists (old : list rfield) (fs : list (cfrag Z)) out final g,
  valid old /\ Forall (placed (-1)) old /\ add_nulls (fun _ => false) old fs out = Ok (fs, final) /\ In g final /\ ~ In g old /\ valid old /\ ~ valid final /\
  schema_field final (r_name g) <> Some g /\ schema_field final (r_name g) <> None.
Proof.
  exists [RF (Build_attrs "a" 0 (-1) "struct" [] None true None SDefault) [RF (Build_attrs "b" 1 0 "int32" [] None true None SDefault) []]], [exn_frag], [ex_leaf "a.b" "int32" 0].
  eexists. exists (ex_leaf "a.b" "int32" 5). split; [apply validate_iff; reflexivity|]. split; [|split; [vm_compute; reflexivity|]].
  - apply Forall_cons; [|apply Forall_nil]. constructor; [reflexivity|right; cbn; lia|]. apply Forall_cons; [|apply Forall_nil]. constructor; [reflexivity|left; reflexivity|apply Forall_nil].
  - split; [right; left; reflexivity|]. split; [intros [X|[]]; discriminate|]. split; [apply validate_iff; reflexivity|]. split; [|split; discriminate].
    intros V. apply validate_iff in V. discriminate.
Qed.
(* of two columns of one name only the first is added *)
Theorem nulls_duplicate_refuted : exists (old : list rfield) (fs : list (cfrag Z)) out final,
  valid old /\ add_nulls (fun _ => false) old fs out = Ok (fs, final) /\ List.length final < List.length old + List.length out.
Proof. exists ex_old, [exn_frag], [ex_leaf "c" "int32" 0; ex_leaf "c" "string" 1]. eexists. split; [apply old_ok|]. split; [vm_compute; reflexivity|]. cbn. lia. Qed.
