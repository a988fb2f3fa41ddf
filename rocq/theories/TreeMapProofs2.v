(* C14 (serialization of row-id sets), C15 (range insertion), C16/C17 (row
   filters), C64 (row-id sequence to row-id set). *)
From Coq Require Import List Arith NArith Bool Lia ZifyBool ZifyN ZifyNat.
From Verif Require Import Lib AMap RowIdsModel RowIdsSpec EncArrProofs BitmapProofs SegProofs SerdeModel SerdeProofs TreeMapModel TreeMapProofs.
Import ListNotations.
Local Open Scope N_scope.
Local Opaque memN.

(** * C15 *)
(* the values of a range of u64 *)
Definition in_range (b1 b2 : bound) (x : N) : Prop :=
  match b1 with Included a => a <= x | Excluded a => a < x | Unbounded => True end /\
  match b2 with Included b => x <= b | Excluded b => x < b | Unbounded => True end.
Definition bound_ok (b : bound) : Prop := match b with Included n | Excluded n => n < two64 | Unbounded => True end.

Lemma u32_range_In : forall lo hi x, In x (u32_range lo hi) <-> lo <= x <= hi.
Proof.
  intros. unfold u32_range. destruct (hi <? lo) eqn:E; [simpl; lia|]. rewrite nrange_In. lia.
Qed.
Lemma u32_range_sinc : forall lo hi, sinc (u32_range lo hi).
Proof. intros. unfold u32_range. destruct (hi <? lo); [exact I|apply nrange_sinc]. Qed.

Lemma ins_frag_get : forall f lo hi m k r,
  sel_has (get k (fst (ins_frag f lo hi m))) r =
  sel_has (get k m) r || ((k =? f) && (lo <=? r) && (r <=? hi)).
Proof.
  intros f lo hi m k r.
  assert (HR : memN r (u32_range lo hi) = (lo <=? r) && (r <=? hi)).
  { apply eq_true_iff_eq. rewrite memN_In, u32_range_In. lia. }
  unfold ins_frag. destruct (get f m) as [[|s]|] eqn:E; cbn [fst].
  - destruct (N.eqb_spec k f) as [->|n]; [rewrite E; reflexivity|cbn [andb]; now rewrite orb_false_r].
  - rewrite get_put. destruct (N.eqb_spec k f) as [->|n]; [|cbn [andb]; now rewrite orb_false_r].
    rewrite E. cbn [sel_has]. rewrite memN_union, HR. cbn [andb]. apply orb_comm.
  - rewrite get_put. destruct (N.eqb_spec k f) as [->|n]; [|cbn [andb]; now rewrite orb_false_r].
    rewrite E. cbn [sel_has]. now rewrite HR.
Qed.

Lemma length_s_insert : forall x s, sinc s -> length (s_insert x s) = (if memN x s then length s else S (length s)).
Proof.
  intros x s. induction s as [|y s IH]; intros H; [reflexivity|]. destruct H as [H1 H2]. cbn [s_insert].
  destruct (x <? y) eqn:E.
  - replace (memN x (y :: s)) with false; [reflexivity|]. symmetry. apply not_true_iff_false. rewrite memN_In.
    intros [->|Hx]; [lia|]. specialize (H1 _ Hx). lia.
  - destruct (x =? y) eqn:E2.
    + replace (memN x (y :: s)) with true; [reflexivity|]. symmetry. apply memN_In. left. lia.
    + cbn [length]. rewrite IH by auto. replace (memN x (y :: s)) with (memN x s); [now destruct (memN x s)|].
      apply eq_true_iff_eq. rewrite !memN_In. simpl. intuition lia.
Qed.

Lemma length_s_union : forall r s, sinc r -> sinc s ->
  length (s_union r s) = (length s + length (filter (fun x => negb (memN x s)) r))%nat.
Proof.
  induction r as [|x r IH]; intros s Hr Hs; cbn [s_union fold_right filter length]; [lia|].
  destruct Hr as [H1 H2]. fold (s_union r s). rewrite length_s_insert by now apply s_union_sinc.
  rewrite memN_union, (IH s H2 Hs).
  replace (memN x r) with false; [cbn [orb]|symmetry; apply not_true_iff_false; rewrite memN_In; intros Hx; specialize (H1 _ Hx); lia].
  destruct (memN x s); cbn [negb length]; lia.
Qed.

(* number of ids of a list not yet in the set *)
Definition fresh (m : tmap) (l : list N) : list N := filter (fun x => negb (t_contains x m)) l.

Lemma map_nrange_add : forall n a c, map (fun r => c + r) (nrange a n) = nrange (c + a) n.
Proof.
  induction n; intros a c; cbn [nrange map]; auto. f_equal. rewrite IHn. f_equal. lia.
Qed.

Lemma u32_range_addr : forall f lo hi, map (fun r => f * two32 + r) (u32_range lo hi) = range_list (f * two32 + lo) (f * two32 + hi + 1).
Proof.
  intros. unfold u32_range, range_list. destruct (hi <? lo) eqn:E.
  - replace (N.to_nat (f * two32 + hi + 1 - (f * two32 + lo))) with 0%nat by lia. reflexivity.
  - rewrite map_nrange_add. f_equal. lia.
Qed.

Lemma filter_map_len : forall {A B} (g : A -> B) f l, length (filter f (map g l)) = length (filter (fun x => f (g x)) l).
Proof. induction l; simpl; auto. destruct (f (g a)); simpl; auto. Qed.
Lemma filter_len_ext : forall {A} (f g : A -> bool) l, (forall x, In x l -> f x = g x) -> length (filter f l) = length (filter g l).
Proof.
  induction l; simpl; intros H; auto. rewrite (H a) by now left. 
  destruct (g a); cbn [length]; rewrite IHl by (intros; apply H; now right); reflexivity.
Qed.

Lemma contains_parts : forall f r m, f < two32 -> r < two32 -> t_contains (f * two32 + r) m = sel_has (get f m) r.
Proof.
  intros f r m Hf Hr. rewrite contains_get. rewrite <- new_from_parts_add by auto.
  destruct (address_roundtrip f r Hf Hr) as [_ [-> ->]]. reflexivity.
Qed.

Lemma ins_frag_count : forall f lo hi m, t_wf m -> f < two32 -> lo < two32 -> hi < two32 ->
  snd (ins_frag f lo hi m) = N.of_nat (length (fresh m (range_list (f * two32 + lo) (f * two32 + hi + 1)))).
Proof.
  intros f lo hi m W Hf Hlo Hhi. rewrite <- u32_range_addr. unfold fresh. rewrite filter_map_len.
  assert (Hb : forall x, In x (u32_range lo hi) -> x < two32) by (intros x Hx; apply u32_range_In in Hx; lia).
  rewrite (filter_len_ext _ (fun r => negb (sel_has (get f m) r))) by (intros x Hx; rewrite contains_parts; auto).
  unfold ins_frag. destruct (get f m) as [[|s]|] eqn:E; cbn [snd sel_has negb].
  - now rewrite filter_all_false.
  - destruct (get_sel_wf _ _ _ W E) as [[S1 S2] _].
    rewrite (length_s_union _ _ (u32_range_sinc lo hi) S1). f_equal. lia.
  - f_equal. now rewrite filter_all_true.
Qed.

Lemma ins_frag_wf : forall f lo hi m, t_wf m -> f < two32 -> hi < two32 -> t_wf (fst (ins_frag f lo hi m)).
Proof.
  intros f lo hi m W Hf Hhi. unfold ins_frag.
  assert (HR : sel_wf (Partial (u32_range lo hi))).
  { split; [apply u32_range_sinc|]. apply Forall_forall. intros x Hx. apply u32_range_In in Hx. lia. }
  destruct (get f m) as [[|s]|] eqn:E; cbn [fst]; auto.
  - destruct (get_sel_wf _ _ _ W E) as [[S1 S2] _]. destruct HR as [R1 R2].
    apply put_t_wf; auto. split; [now apply s_union_sinc|now apply s_union_forall].
  - apply put_t_wf; auto.
Qed.

Lemma addr_decomp : forall x, x < two64 -> x = fragment_id x * two32 + row_offset x.
Proof.
  intros x Hx. rewrite <- new_from_parts_add; [symmetry; now apply address_split|apply fragment_id_bound|apply row_offset_bound].
Qed.

Lemma range_list_app : forall a b c, a <= b -> b <= c -> range_list a c = range_list a b ++ range_list b c.
Proof.
  intros. unfold range_list. replace (N.to_nat (c - a)) with (N.to_nat (b - a) + N.to_nat (c - b))%nat by lia.
  rewrite nrange_app. f_equal. f_equal. lia.
Qed.
Lemma range_list_In : forall a b x, In x (range_list a b) <-> a <= x < b.
Proof. intros. unfold range_list. rewrite nrange_In. lia. Qed.

Lemma ins_loop_spec : forall fuel sh sl eh el cnt m,
  t_wf m -> eh < u32_max -> sl < two32 -> el < two32 -> (N.to_nat (eh + 1 - sh) <= fuel)%nat ->
  exists m', ins_loop fuel sh sl eh el cnt m =
               Some (m', cnt + N.of_nat (length (fresh m (range_list (sh * two32 + sl) (eh * two32 + el + 1))))) /\
    t_wf m' /\
    forall x, x < two64 -> t_contains x m' = t_contains x m || ((sh * two32 + sl <=? x) && (x <=? eh * two32 + el)).
Proof.
  assert (E32 : two32 = u32_max + 1) by reflexivity.
  assert (Hpos : 0 < two32) by (unfold two32; lia).
  induction fuel as [|fuel IH]; intros sh sl eh el cnt m W Heh Hsl Hel Hf.
  - assert (eh < sh) by lia. cbn [ins_loop]. replace (eh <? sh) with true by lia. exists m.
    replace (range_list (sh * two32 + sl) (eh * two32 + el + 1)) with (@nil N).
    + split; [f_equal; f_equal; cbn; lia|]. split; auto. intros x Hx.
      replace ((sh * two32 + sl <=? x) && (x <=? eh * two32 + el)) with false by (unfold two32 in *; lia). now rewrite orb_false_r.
    + unfold range_list. replace (eh * two32 + el + 1 - (sh * two32 + sl)) with 0 by (unfold two32 in *; lia). reflexivity.
  - cbn [ins_loop]. destruct (eh <? sh) eqn:Elt.
    + exists m. replace (range_list (sh * two32 + sl) (eh * two32 + el + 1)) with (@nil N).
      * split; [f_equal; f_equal; cbn; lia|]. split; auto. intros x Hx.
        replace ((sh * two32 + sl <=? x) && (x <=? eh * two32 + el)) with false by (unfold two32 in *; lia). now rewrite orb_false_r.
      * unfold range_list. replace (eh * two32 + el + 1 - (sh * two32 + sl)) with 0 by (unfold two32 in *; lia). reflexivity.
    + set (hi := if sh =? eh then el else u32_max).
      assert (Hhi : hi < two32) by (unfold hi; destruct (sh =? eh); lia).
      assert (Hsh : sh < two32) by lia.
      assert (Hc := ins_frag_count sh sl hi m W Hsh Hsl Hhi).
      assert (Hw := ins_frag_wf sh sl hi m W Hsh Hhi).
      assert (Hg := ins_frag_get sh sl hi m).
      destruct (ins_frag sh sl hi m) as [m1 c] eqn:Ei. cbn [fst snd] in *.
      replace (sh =? u32_max) with false by lia.
      destruct (IH (sh + 1) 0 eh el (cnt + c) m1 Hw Heh Hpos Hel ltac:(lia)) as [m' [E1 [E2 E3]]].
      exists m'. rewrite E1. split; [|split; auto].
      * f_equal. f_equal. rewrite Hc.
        assert (Hin1 : forall x, sh * two32 + two32 <= x -> x < two64 -> t_contains x m1 = t_contains x m).
        { intros x Hx1 Hx2. rewrite !contains_get, Hg. assert (D := addr_decomp x Hx2). assert (R := row_offset_bound x).
          replace (fragment_id x =? sh) with false by (unfold two32 in *; lia). cbn [andb]. apply orb_false_r. }
        unfold hi. destruct (N.eqb_spec sh eh) as [->|n].
        -- replace (range_list ((eh + 1) * two32 + 0) (eh * two32 + el + 1)) with (@nil N).
           ++ cbn [fresh filter length N.of_nat]. lia.
           ++ unfold range_list. replace (eh * two32 + el + 1 - ((eh + 1) * two32 + 0)) with 0 by (unfold two32 in *; lia). reflexivity.
        -- rewrite (range_list_app (sh * two32 + sl) (sh * two32 + u32_max + 1) (eh * two32 + el + 1)).
           ++ unfold fresh. rewrite filter_app, app_length.
              replace (sh * two32 + u32_max + 1) with ((sh + 1) * two32 + 0) by (unfold two32, u32_max in *; lia).
              rewrite (filter_len_ext (fun x => negb (t_contains x m1)) (fun x => negb (t_contains x m)) (range_list ((sh + 1) * two32 + 0) (eh * two32 + el + 1))).
              ** lia.
              ** intros x Hx. apply range_list_In in Hx. rewrite Hin1; auto; unfold two32, two64, u32_max in *; lia.
           ++ unfold two32, u32_max in *; lia.
           ++ unfold two32, u32_max in *; lia.
      * intros x Hx. rewrite (E3 x Hx). rewrite !contains_get, Hg. rewrite <- orb_assoc. f_equal.
        assert (D := addr_decomp x Hx). assert (R := row_offset_bound x).
        set (F := fragment_id x) in *. set (r := row_offset x) in *.
        unfold hi. clearbody F r. clear E1 E3 Hg Hc. subst x.
        apply eq_true_iff_eq. rewrite orb_true_iff, !andb_true_iff, !N.leb_le, N.eqb_eq.
        destruct (N.eqb_spec sh eh); unfold two32, u32_max in *; lia.
Qed.

Theorem insert_range_exact : forall b1 b2 m, t_wf m -> bound_ok b1 -> bound_ok b2 ->
  fragment_id (upper b2) < u32_max ->
  exists m' c, t_insert_range b1 b2 m = Some (m', c) /\ t_wf m' /\
    c = N.of_nat (length (fresh m (range_list (lower b1) (upper b2 + 1)))) /\
    forall x, x < two64 -> (t_contains x m' = true <-> t_contains x m = true \/ lower b1 <= x <= upper b2).
Proof.
  intros b1 b2 m W H1 H2 Hf. unfold t_insert_range.
  assert (Hl : lower b1 < two64).
  { destruct b1; cbn in *; auto; [|unfold two64; lia]. destruct (n =? u64_max) eqn:E; auto. unfold u64_max, two64 in *. lia. }
  assert (Hu : upper b2 < two64).
  { destruct b2; cbn in *; auto; [lia|unfold u64_max, two64; lia]. }
  assert (D1 := addr_decomp _ Hl). assert (D2 := addr_decomp _ Hu).
  destruct (ins_loop_spec (S (N.to_nat (fragment_id (upper b2) - fragment_id (lower b1)))) (fragment_id (lower b1)) (row_offset (lower b1))
    (fragment_id (upper b2)) (row_offset (upper b2)) 0 m W Hf (row_offset_bound _) (row_offset_bound _) ltac:(lia)) as [m' [E1 [E2 E3]]].
  eexists; eexists. split; [exact E1|]. rewrite <- D1, <- D2 in *. split; auto. split; [lia|].
  intros x Hx. rewrite (E3 x Hx), orb_true_iff, andb_true_iff, !N.leb_le. lia.
Qed.

(* for ranges other than `..0` and `(MAX, ..` the inserted ids are the ids of the range *)
Theorem insert_range_spec : forall b1 b2 m, t_wf m -> bound_ok b1 -> bound_ok b2 ->
  b2 <> Excluded 0 -> b1 <> Excluded u64_max -> fragment_id (upper b2) < u32_max ->
  exists m' c, t_insert_range b1 b2 m = Some (m', c) /\ t_wf m' /\
    (forall x, x < two64 -> (t_contains x m' = true <-> t_contains x m = true \/ in_range b1 b2 x)) /\
    exists news, NoDup news /\ c = N.of_nat (length news) /\
      (forall x, x < two64 -> (In x news <-> t_contains x m = false /\ in_range b1 b2 x)).
Proof.
  intros b1 b2 m W H1 H2 N1 N2 Hf.
  destruct (insert_range_exact b1 b2 m W H1 H2 Hf) as [m' [c [E1 [E2 [E3 E4]]]]].
  assert (G : forall x, x < two64 -> (lower b1 <= x <= upper b2 <-> in_range b1 b2 x)).
  { intros x Hx. unfold in_range.
    assert (A : lower b1 <= x <-> match b1 with Included a => a <= x | Excluded a => a < x | Unbounded => True end).
    { destruct b1; cbn; [lia| |split; auto; lia]. destruct (N.eqb_spec n u64_max); [subst; congruence|lia]. }
    assert (B : x <= upper b2 <-> match b2 with Included b => x <= b | Excluded b => x < b | Unbounded => True end).
    { destruct b2; cbn; [lia| |split; auto; unfold u64_max, two64 in *; lia].
      destruct (N.eq_dec n 0); [subst; congruence|lia]. }
    tauto. }
  exists m', c. split; auto. split; auto. split.
  - intros x Hx. rewrite (E4 x Hx), (G x Hx). tauto.
  - exists (fresh m (range_list (lower b1) (upper b2 + 1))). split; [|split; auto].
    + apply NoDup_filter. apply sinc_NoDup. apply nrange_sinc.
    + intros x Hx. unfold fresh. rewrite filter_In, range_list_In, negb_true_iff. rewrite <- (G x Hx).
      assert (x < upper b2 + 1 <-> x <= upper b2) by lia. tauto.
Qed.

(* the last fragment cannot be inserted *)
Theorem insert_range_last_fragment : forall b1 b2 m, fragment_id (upper b2) = u32_max -> t_insert_range b1 b2 m = None.
Proof.
  intros b1 b2 m H. unfold t_insert_range. rewrite H.
  assert (G : forall fuel sh sl el cnt m, sh <= u32_max -> (N.to_nat (u32_max - sh) < fuel)%nat -> ins_loop fuel sh sl u32_max el cnt m = None).
  { induction fuel as [|fuel IH]; intros sh sl el cnt m' Hsh Hf; [lia|]. cbn [ins_loop].
    replace (u32_max <? sh) with false by lia. destruct (ins_frag _ _ _ m') as [m1 c].
    destruct (N.eqb_spec sh u32_max); auto. apply IH; lia. }
  apply G; [|lia]. assert (B := fragment_id_bound (lower b1)). unfold two32, u32_max in *. lia.
Qed.

Theorem insert_empty_range_refuted :
  ~ in_range (Included 0) (Excluded 0) 0 /\
  exists m', t_insert_range (Included 0) (Excluded 0) [] = Some (m', 1) /\ t_contains 0 m' = true.
Proof. split; [unfold in_range; lia|]. eexists. split; vm_compute; reflexivity. Qed.

Theorem insert_full_range_refuted : t_insert_range Unbounded Unbounded [] = None.
Proof. apply insert_range_last_fragment. reflexivity. Qed.

Example insert_range_ex : exists m', t_insert_range (Included 4294967294) (Included 4294967297) [(0, Partial [4294967295])] = Some (m', 3) /\
  m' = [(0, Partial [4294967294; 4294967295]); (1, Partial [0; 1])].
Proof. eexists. split; vm_compute; reflexivity. Qed.
