From Coq Require Import List Arith NArith Bool Lia ZifyBool ZifyN ZifyNat.
From Verif Require Import Lib AMap RowIdsModel RowIdsSpec EncArrProofs SegProofs SerdeModel SerdeProofs TreeMapModel.
Import ListNotations.
Local Open Scope N_scope.

(** * C11: addresses *)

Lemma fragment_id_div : forall v, fragment_id v = (v / two32) mod two32.
Proof. intros. unfold fragment_id. rewrite N.shiftr_div_pow2. reflexivity. Qed.
Lemma fragment_id_small : forall v, v < two64 -> fragment_id v = v / two32.
Proof.
  intros. rewrite fragment_id_div. apply N.mod_small. apply N.div_lt_upper_bound; [unfold two32; lia|].
  unfold two32, two64 in *. lia.
Qed.
Lemma fragment_id_bound : forall v, fragment_id v < two32.
Proof. intros. unfold fragment_id. apply N.mod_lt. unfold two32. lia. Qed.
Lemma row_offset_bound : forall v, row_offset v < two32.
Proof. intros. unfold row_offset. apply N.mod_lt. unfold two32. lia. Qed.

Lemma lor_shift_add : forall f o, o < two32 -> N.lor (f * two32) o = f * two32 + o.
Proof.
  intros f o Ho. rewrite <- N.lxor_lor.
  - symmetry. apply N.add_nocarry_lxor. apply N.bits_inj. intros i. rewrite N.land_spec, N.bits_0.
    change two32 with (2 ^ 32) in *. destruct (N.ltb_spec i 32).
    + rewrite N.mul_pow2_bits_low by auto. reflexivity.
    + rewrite (N.bits_above_log2 o i); [apply andb_false_r|].
      destruct (N.eq_dec o 0) as [->|Hz]; [simpl; lia|].
      assert (N.log2 o < 32) by (apply N.log2_lt_pow2; lia). lia.
  - apply N.bits_inj. intros i. rewrite N.land_spec, N.bits_0.
    change two32 with (2 ^ 32) in *. destruct (N.ltb_spec i 32).
    + rewrite N.mul_pow2_bits_low by auto. reflexivity.
    + rewrite (N.bits_above_log2 o i); [apply andb_false_r|].
      destruct (N.eq_dec o 0) as [->|Hz]; [simpl; lia|].
      assert (N.log2 o < 32) by (apply N.log2_lt_pow2; lia). lia.
Qed.

Lemma new_from_parts_add : forall f o, f < two32 -> o < two32 -> new_from_parts f o = f * two32 + o.
Proof.
  intros f o Hf Ho. unfold new_from_parts. rewrite N.shiftl_mul_pow2. change (2 ^ 32) with two32.
  rewrite N.mod_small by (unfold two32, two64 in *; lia). now apply lor_shift_add.
Qed.

Lemma addr_div : forall f o, o < two32 -> (f * two32 + o) / two32 = f.
Proof. intros. symmetry. apply N.div_unique with o; [auto|lia]. Qed.
Lemma addr_mod : forall f o, o < two32 -> (f * two32 + o) mod two32 = o.
Proof. intros. symmetry. apply N.mod_unique with f; [auto|lia]. Qed.

Theorem address_roundtrip : forall f o, f < two32 -> o < two32 ->
  new_from_parts f o < two64 /\ fragment_id (new_from_parts f o) = f /\ row_offset (new_from_parts f o) = o.
Proof.
  intros f o Hf Ho. rewrite new_from_parts_add by auto.
  assert (f * two32 + o < two64) by (unfold two32, two64 in *; lia).
  split; auto. rewrite fragment_id_small by auto. unfold row_offset. rewrite addr_div, addr_mod by auto. auto.
Qed.

Theorem address_split : forall v, v < two64 -> new_from_parts (fragment_id v) (row_offset v) = v.
Proof.
  intros v Hv. rewrite new_from_parts_add by (apply fragment_id_bound || apply row_offset_bound).
  rewrite fragment_id_small by auto. unfold row_offset. rewrite N.mul_comm. symmetry. apply N.div_mod. unfold two32. lia.
Qed.

Theorem address_order : forall f o f' o', f < two32 -> o < two32 -> f' < two32 -> o' < two32 ->
  (new_from_parts f o < new_from_parts f' o' <-> f < f' \/ (f = f' /\ o < o')).
Proof.
  intros. rewrite !new_from_parts_add by auto. unfold two32 in *. nia.
Qed.

Theorem address_range_spec : forall f v, f < TOMBSTONE_FRAG -> v < two64 ->
  exists a b, address_range f = Some (a, b) /\ (a <= v < b <-> fragment_id v = f).
Proof.
  intros f v Hf Hv. unfold address_range. replace (f + 1 <? two32) with true by (unfold TOMBSTONE_FRAG, two32 in *; lia).
  eexists; eexists. split; [reflexivity|]. unfold first_row.
  rewrite !new_from_parts_add by (unfold TOMBSTONE_FRAG, two32 in *; lia).
  rewrite fragment_id_small by auto.
  assert (D := N.div_mod v two32 ltac:(unfold two32; lia)). assert (M := N.mod_lt v two32 ltac:(unfold two32; lia)).
  split; intros H.
  - assert (v / two32 < f + 1) by (apply N.div_lt_upper_bound; unfold two32 in *; lia).
    assert (f <= v / two32) by (apply N.div_le_lower_bound; unfold two32 in *; lia). lia.
  - rewrite <- H. lia.
Qed.

Example address_ex : new_from_parts 3 7 = 12884901895 /\ fragment_id 12884901895 = 3 /\ row_offset 12884901895 = 7 /\
  address_range 3 = Some (12884901888, 17179869184).
Proof. vm_compute. auto. Qed.

(** * C12: set algebra *)

Lemma bm_full_In : forall x, In x bm_full <-> x < two32.
Proof. intros x. unfold u32_below. rewrite nrange_In, N2Nat.id. lia. Qed.
Lemma bm_full_sinc : sinc bm_full.
Proof. apply nrange_sinc. Qed.
Global Opaque u32_below.

Definition sel_has (o : option sel) (r : N) : bool :=
  match o with None => false | Some Full => true | Some (Partial s) => memN r s end.
Lemma contains_get : forall v m, t_contains v m = sel_has (get (fragment_id v) m) (row_offset v).
Proof. intros. unfold t_contains, sel_has. destruct (get _ m) as [[|s]|]; reflexivity. Qed.

Definition sel_wf (s : sel) : Prop :=
  match s with Full => True | Partial l => sinc l /\ Forall (fun x => x < two32) l end.
Definition t_wf (m : tmap) : Prop := am_wf m /\ Forall (fun p => fst p < two32 /\ sel_wf (snd p)) m.

Lemma memN_union : forall x a b, memN x (s_union a b) = memN x a || memN x b.
Proof. intros. apply eq_true_iff_eq. rewrite orb_true_iff, !memN_In. apply s_union_In. Qed.
Lemma memN_inter : forall x a b, memN x (s_inter a b) = memN x a && memN x b.
Proof. intros. apply eq_true_iff_eq. rewrite andb_true_iff, !memN_In. apply s_inter_In. Qed.
Lemma memN_diff : forall x a b, memN x (s_diff a b) = memN x a && negb (memN x b).
Proof.
  intros. apply eq_true_iff_eq. rewrite andb_true_iff, negb_true_iff, <- not_true_iff_false, !memN_In. apply s_diff_In.
Qed.
Lemma memN_insert : forall x y s, memN x (s_insert y s) = (x =? y) || memN x s.
Proof. intros. apply eq_true_iff_eq. rewrite orb_true_iff, !memN_In, s_insert_In, N.eqb_eq. tauto. Qed.
Lemma memN_full : forall x, x < two32 -> memN x bm_full = true.
Proof. intros. rewrite memN_In, bm_full_In. auto. Qed.
Lemma memN_nil : forall x, memN x [] = false.
Proof. reflexivity. Qed.
Lemma memN_sing : forall x y, memN x [y] = (x =? y).
Proof. intros. apply eq_true_iff_eq. rewrite memN_In, N.eqb_eq. simpl. intuition congruence. Qed.
Local Opaque memN.

Lemma addr_eq : forall v w, v < two64 -> w < two64 ->
  (v =? w) = (fragment_id v =? fragment_id w) && (row_offset v =? row_offset w).
Proof.
  intros v w Hv Hw. apply eq_true_iff_eq. rewrite andb_true_iff, !N.eqb_eq. split; [intros ->; auto|].
  intros [H1 H2]. rewrite <- (address_split v), <- (address_split w) by auto. congruence.
Qed.

Theorem insert_spec : forall m v x, v < two64 -> x < two64 ->
  t_contains x (fst (t_insert v m)) = (x =? v) || t_contains x m.
Proof.
  intros m v x Hv Hx. rewrite addr_eq by auto. rewrite !contains_get. unfold t_insert.
  destruct (get (fragment_id v) m) as [[|s]|] eqn:E; cbn [fst].
  - destruct (N.eqb_spec (fragment_id x) (fragment_id v)) as [e|e]; cbn [andb orb]; auto. rewrite e, E. cbn [sel_has].
    now rewrite orb_true_r.
  - rewrite get_put. destruct (N.eqb_spec (fragment_id x) (fragment_id v)) as [e|e]; cbn [andb orb]; auto.
    rewrite e, E. cbn [sel_has]. apply memN_insert.
  - rewrite get_put. destruct (N.eqb_spec (fragment_id x) (fragment_id v)) as [e|e]; cbn [andb orb]; auto.
    rewrite e, E. cbn [sel_has]. rewrite memN_sing. now rewrite orb_false_r.
Qed.

Theorem insert_reports_new : forall m v, snd (t_insert v m) = negb (t_contains v m).
Proof.
  intros. unfold t_insert, t_contains. destruct (get _ m) as [[|s]|]; reflexivity.
Qed.

Theorem remove_spec : forall m v x, v < two64 -> x < two64 ->
  t_contains x (fst (t_remove v m)) = negb (x =? v) && t_contains x m.
Proof.
  intros m v x Hv Hx. rewrite addr_eq by auto. rewrite !contains_get. unfold t_remove.
  destruct (get (fragment_id v) m) as [[|s]|] eqn:E; cbn [fst].
  - rewrite get_put. destruct (N.eqb_spec (fragment_id x) (fragment_id v)) as [e|e]; cbn [andb negb]; auto.
    rewrite e, E. cbn [sel_has]. rewrite memN_diff, memN_full, memN_sing by apply row_offset_bound.
    now rewrite andb_true_r.
  - assert (G : sel_has (get (fragment_id x) (match s_diff s [row_offset v] with [] => del (fragment_id v) m
                 | _ => put (fragment_id v) (Partial (s_diff s [row_offset v])) m end)) (row_offset x) =
               sel_has (get (fragment_id x) (put (fragment_id v) (Partial (s_diff s [row_offset v])) m)) (row_offset x)).
    { destruct (s_diff s [row_offset v]); auto. rewrite get_del, get_put.
      destruct (fragment_id x =? fragment_id v); auto. }
    rewrite G, get_put. destruct (N.eqb_spec (fragment_id x) (fragment_id v)) as [e|e]; cbn [andb negb]; auto.
    rewrite e, E. cbn [sel_has]. rewrite memN_diff, memN_sing. apply andb_comm.
  - destruct (N.eqb_spec (fragment_id x) (fragment_id v)) as [e|e]; cbn [andb negb]; auto. rewrite e, E. cbn [sel_has].
    now rewrite andb_false_r.
Qed.

Theorem remove_reports_present : forall m v, snd (t_remove v m) = t_contains v m.
Proof.
  intros. unfold t_remove, t_contains. destruct (get _ m) as [[|s]|]; reflexivity.
Qed.

Theorem insert_fragment_spec : forall m f x, t_contains x (t_insert_fragment f m) = (fragment_id x =? f) || t_contains x m.
Proof.
  intros. rewrite !contains_get. unfold t_insert_fragment. rewrite get_put. now destruct (fragment_id x =? f).
Qed.

Theorem retain_spec : forall m fs x, t_contains x (t_retain fs m) = memN (fragment_id x) fs && t_contains x m.
Proof.
  intros. rewrite !contains_get. unfold t_retain. rewrite (get_filter_key (fun k => memN k fs)).
  now destruct (memN (fragment_id x) fs).
Qed.

(* folds that treat the entries of the right operand one by one *)
Lemma fold_entries : forall (op : tmap -> N * sel -> tmap) (comb : option sel -> sel -> option sel),
  (forall m p k, get k (op m p) = if k =? fst p then comb (get k m) (snd p) else get k m) ->
  forall b a k, am_wf b ->
  get k (fold_left op b a) = match get k b with Some s => comb (get k a) s | None => get k a end.
Proof.
  intros op comb H. induction b as [|[k' s] b IH]; intros a k W; [reflexivity|]. destruct W as [W1 W2].
  cbn [fold_left get]. rewrite IH by exact W2. rewrite H. cbn [fst snd]. destruct (N.eqb_spec k k'); [|reflexivity].
  subst k'. replace (get k b) with (@None sel); [reflexivity|]. symmetry. apply get_None. intros HI.
  specialize (W1 _ HI). simpl in W1. lia.
Qed.

Definition or_comb (l : option sel) (r : sel) : option sel :=
  match l with
  | None => Some r
  | Some Full => Some Full
  | Some (Partial s) => match r with Partial r => Some (Partial (s_union s r)) | Full => Some (Partial s) end
  end.
Lemma or_get : forall a b k, am_wf b ->
  get k (t_or a b) = match get k b with Some s => or_comb (get k a) s | None => get k a end.
Proof.
  intros. apply (fold_entries or_entry or_comb); auto. intros m [f s] k'. unfold or_entry. cbn [fst snd].
  destruct (get f m) as [[|l]|] eqn:E; cbn [or_comb].
  - destruct (N.eqb_spec k' f); auto. subst. now rewrite E.
  - destruct s as [|r]; [|rewrite get_put]; (destruct (N.eqb_spec k' f); auto; subst; rewrite E; reflexivity).
  - rewrite get_put. destruct (N.eqb_spec k' f); auto. subst. now rewrite E.
Qed.

Definition ext_comb (l : option sel) (r : sel) : option sel :=
  match l with
  | None => Some r
  | Some Full => Some Full
  | Some (Partial s) => match r with Partial r => Some (Partial (s_union s r)) | Full => Some Full end
  end.
Lemma ext_get : forall a b k, am_wf b ->
  get k (fold_left ext_entry b a) = match get k b with Some s => ext_comb (get k a) s | None => get k a end.
Proof.
  intros. apply (fold_entries ext_entry ext_comb); auto. intros m [f s] k'. unfold ext_entry. cbn [fst snd].
  destruct (get f m) as [[|l]|] eqn:E; cbn [ext_comb].
  - destruct (N.eqb_spec k' f); auto. subst. now rewrite E.
  - destruct s as [|r]; rewrite get_put; (destruct (N.eqb_spec k' f); auto; subst; rewrite E; reflexivity).
  - rewrite get_put. destruct (N.eqb_spec k' f); auto. subst. now rewrite E.
Qed.

Definition sub_comb (l : option sel) (r : sel) : option sel :=
  match l with
  | None => None
  | Some Full => match r with Full => None | Partial r => Some (Partial (s_diff bm_full r)) end
  | Some (Partial s) => match r with Full => None | Partial r => match s_diff s r with [] => None | s' => Some (Partial s') end end
  end.
Lemma sub_get : forall a b k, am_wf b ->
  get k (t_sub a b) = match get k b with Some s => sub_comb (get k a) s | None => get k a end.
Proof.
  intros. apply (fold_entries sub_entry sub_comb); auto. intros m [f s] k'. unfold sub_entry. cbn [fst snd].
  destruct (get f m) as [[|l]|] eqn:E; cbn [sub_comb].
  - destruct s as [|r]; [rewrite get_del|rewrite get_put]; (destruct (N.eqb_spec k' f); auto; subst; rewrite E; reflexivity).
  - destruct s as [|r]; [rewrite get_del|destruct (s_diff l r) eqn:E2; [rewrite get_del|rewrite get_put]];
      (destruct (N.eqb_spec k' f); auto; subst; rewrite E; cbn [sub_comb]; rewrite ?E2; reflexivity).
  - destruct (N.eqb_spec k' f); auto. subst. now rewrite E.
Qed.

Theorem sub_spec : forall a b x, am_wf b -> t_contains x (t_sub a b) = t_contains x a && negb (t_contains x b).
Proof.
  intros a b x W. rewrite !contains_get, sub_get by auto. set (f := fragment_id x).
  assert (Hr := row_offset_bound x). set (r := row_offset x) in *.
  destruct (get f b) as [[|s]|]; destruct (get f a) as [[|l]|]; cbn [sub_comb sel_has negb andb]; auto.
  - now rewrite andb_false_r.
  - rewrite memN_diff, memN_full by auto. reflexivity.
  - destruct (s_diff l s) eqn:E; cbn [sel_has]; [rewrite <- memN_diff, E; reflexivity|rewrite <- E; apply memN_diff].
  - now rewrite andb_true_r.
Qed.

Lemma get_drop_empty : forall k (m : tmap), am_wf m -> forall r,
  sel_has (get k (filter (fun p => match snd p with Partial [] => false | _ => true end) m)) r = sel_has (get k m) r.
Proof.
  intros k m. unfold am_wf. induction m as [|[k' s] m IH]; intros W r; [reflexivity|]. destruct W as [W1 W2].
  cbn [filter snd]. destruct s as [|[|y l]].
  - cbn [get]. destruct (N.eqb_spec k k'); auto.
  - cbn [get]. rewrite (IH W2). destruct (N.eqb_spec k k'); auto. subst.
    replace (get k' m) with (@None sel); auto. symmetry. apply get_None. intros HI. specialize (W1 _ HI). simpl in W1. lia.
  - cbn [get]. destruct (N.eqb_spec k k'); auto.
Qed.

Theorem and_spec : forall a b x, am_wf a -> t_contains x (t_and a b) = t_contains x a && t_contains x b.
Proof.
  intros a b x W. rewrite !contains_get. unfold t_and. set (f := fragment_id x). set (r := row_offset x).
  rewrite get_drop_empty.
  2:{ unfold am_wf. rewrite keys_map_val. now apply filter_wf. }
  rewrite (get_map_val (and_entry b)), (get_filter_key (fun k => has k b)). unfold has.
  destruct (get f b) as [[|s]|] eqn:E; destruct (get f a) as [[|l]|]; cbn [omap sel_has andb]; unfold and_entry; rewrite ?E; cbn [sel_has]; auto.
  - now rewrite andb_true_r.
  - apply memN_inter.
  - now rewrite andb_false_r.
Qed.

(* bulk union *)
Definition group_of (k : N) (l : list (N * sel)) : list sel :=
  map snd (filter (fun p => fst p =? k) l).
Lemma push_get : forall l g k,
  get k (fold_left push_entry l g) =
  match get k g, group_of k l with
  | None, [] => None
  | o, x => Some (match o with Some y => y | None => [] end ++ x)
  end.
Proof.
  induction l as [|[f s] l IH]; intros g k; cbn [fold_left].
  - unfold group_of. simpl. destruct (get k g); auto. now rewrite app_nil_r.
  - rewrite IH. unfold push_entry at 1. cbn [fst snd]. rewrite get_put. unfold group_of. cbn [filter fst].
    destruct (N.eqb_spec k f) as [->|n].
    + rewrite N.eqb_refl. cbn [map snd]. destruct (get f g); [rewrite <- app_assoc; reflexivity|reflexivity].
    + replace (f =? k) with false by lia. reflexivity.
Qed.

Lemma sel_union_has : forall l r, sel_has (Some (sel_union_all l)) r = existsb (fun s => sel_has (Some s) r) l.
Proof.
  intros l r. unfold sel_union_all. destruct (existsb (fun s => match s with Full => true | _ => false end) l) eqn:E.
  - cbn [sel_has]. symmetry. apply existsb_exists in E. destruct E as [s [Hs E]]. apply existsb_exists.
    exists s. split; auto. now destruct s.
  - cbn [sel_has]. induction l as [|s l IH]; [reflexivity|]. cbn [existsb] in E. apply orb_false_iff in E.
    destruct E as [E1 E2]. destruct s as [|b]; [discriminate|]. cbn [fold_right existsb]. rewrite memN_union, IH; auto.
Qed.

Theorem union_all_spec : forall ms x, Forall (fun m => am_wf m) ms ->
  t_contains x (t_union_all ms) = existsb (t_contains x) ms.
Proof.
  intros ms x W. rewrite contains_get. unfold t_union_all. set (f := fragment_id x). set (r := row_offset x).
  rewrite (get_map_val (fun _ => sel_union_all)), push_get. cbn [get].
  assert (G : existsb (t_contains x) ms = existsb (fun s => sel_has (Some s) r) (group_of f (concat ms))).
  { induction ms as [|m ms IH]; [reflexivity|]. inversion W as [|? ? W1 W2]; subst. cbn [existsb concat].
    rewrite IH by auto. unfold group_of. rewrite filter_app, map_app, existsb_app. f_equal.
    rewrite contains_get. fold f r. clear - W1. unfold am_wf in W1. induction m as [|[k s] m IH]; [reflexivity|].
    destruct W1 as [A B]. cbn [get filter fst]. destruct (N.eqb_spec f k) as [->|n].
    - rewrite N.eqb_refl. cbn [map snd existsb].
      replace (filter (fun p => fst p =? k) m) with (@nil (N * sel)); [cbn; now rewrite orb_false_r|].
      symmetry. clear - A. induction m as [|[k' s'] m IH]; auto. cbn [filter fst].
      assert (k < k') by (apply A; now left). replace (k' =? k) with false by lia. apply IH. intros y Hy. apply A. now right.
    - replace (k =? f) with false by lia. auto. }
  rewrite G. destruct (group_of f (concat ms)) as [|s l]; [reflexivity|].
  cbn [omap app]. apply sel_union_has.
Qed.

(* bulk insertion of ids and of sets *)
Theorem extend_spec : forall ids m x, Forall (fun v => v < two64) ids -> x < two64 ->
  t_contains x (t_extend ids m) = memN x ids || t_contains x m.
Proof.
  unfold t_extend. induction ids as [|v ids IH]; intros m x Hv Hx; cbn [fold_left]; [reflexivity|].
  inversion Hv; subst. rewrite IH by auto. rewrite insert_spec by auto.
  replace (memN x (v :: ids)) with ((x =? v) || memN x ids).
  - destruct (x =? v), (memN x ids); reflexivity.
  - apply eq_true_iff_eq. rewrite orb_true_iff, !memN_In, N.eqb_eq. simpl. intuition.
Qed.

Theorem extend_maps_spec : forall others m x, Forall (fun o => am_wf o) others ->
  t_contains x (t_extend_maps others m) = existsb (t_contains x) others || t_contains x m.
Proof.
  unfold t_extend_maps. induction others as [|o os IH]; intros m x W; cbn [fold_left existsb]; auto.
  inversion W as [|? ? W1 W2]; subst. rewrite IH by auto.
  assert (G : t_contains x (fold_left ext_entry o m) = t_contains x o || t_contains x m).
  { rewrite !contains_get, ext_get by auto.
    destruct (get (fragment_id x) o) as [[|s]|]; destruct (get (fragment_id x) m) as [[|l]|];
      cbn [ext_comb sel_has]; rewrite ?memN_union, ?orb_true_r, ?orb_false_r; auto using orb_comm. }
  rewrite G. destruct (t_contains x o), (existsb (t_contains x) os); reflexivity.
Qed.

(** * C13 *)
(* no fragment is partial on the left and whole on the right *)
Definition no_partial_vs_full (a b : tmap) : Prop :=
  forall f s, get f a = Some (Partial s) -> get f b <> Some Full.

Theorem or_spec : forall a b x, am_wf b -> no_partial_vs_full a b ->
  t_contains x (t_or a b) = t_contains x a || t_contains x b.
Proof.
  intros a b x W H. rewrite !contains_get, or_get by auto. set (f := fragment_id x). set (r := row_offset x).
  specialize (H f). destruct (get f b) as [[|s]|]; destruct (get f a) as [[|l]|]; cbn [or_comb sel_has orb]; auto.
  - exfalso. eapply H; reflexivity.
  - apply memN_union.
  - now rewrite orb_false_r.
Qed.

(* in general the union loses exactly the rows of whole fragments on the right
   that are partial on the left *)
Theorem or_spec_exact : forall a b x, am_wf b ->
  t_contains x (t_or a b) =
  t_contains x a || (t_contains x b && negb (match get (fragment_id x) a, get (fragment_id x) b with
                                             | Some (Partial _), Some Full => true | _, _ => false end)).
Proof.
  intros a b x W. rewrite !contains_get, or_get by auto. set (f := fragment_id x). set (r := row_offset x).
  destruct (get f b) as [[|s]|]; destruct (get f a) as [[|l]|]; cbn [or_comb sel_has orb andb negb];
    rewrite ?orb_false_r, ?orb_true_r, ?andb_true_r, ?andb_false_r, ?memN_union, ?orb_false_r; auto.
Qed.

Theorem or_refuted : exists a b x, t_wf a /\ t_wf b /\ x < two64 /\
  t_contains x b = true /\ t_contains x (t_or a b) = false.
Proof.
  exists [(0, Partial [5])], [(0, Full)], 6. split; [|split; [|split; [|vm_compute; auto]]].
  - split; [split; [intros ? []|exact I]|]. constructor; [|constructor]. cbn. split; [unfold two32; lia|].
    split; [split; [intros ? []|exact I]|]. constructor; [unfold two32; lia|constructor].
  - split; [split; [intros ? []|exact I]|]. constructor; [|constructor]. cbn. split; [unfold two32; lia|auto].
  - unfold two64. lia.
Qed.

(** * Well-formedness is preserved *)
Lemma put_t_wf : forall m k s, t_wf m -> k < two32 -> sel_wf s -> t_wf (put k s m).
Proof.
  intros m k s [W1 W2] Hk Hs. split; [now apply put_wf|].
  clear W1. induction m as [|[k' v'] m IH]; cbn [put].
  - constructor; auto.
  - inversion W2; subst. destruct (k <? k'); [constructor; auto|]. destruct (k =? k'); constructor; auto.
Qed.
Lemma filter_t_wf : forall f m, t_wf m -> t_wf (filter f m).
Proof.
  intros f m [W1 W2]. split; [now apply filter_wf|]. rewrite Forall_forall in *. intros p Hp. apply filter_In in Hp. apply W2. tauto.
Qed.
Lemma get_sel_wf : forall m k s, t_wf m -> get k m = Some s -> sel_wf s /\ k < two32.
Proof.
  intros m k s [_ W] H. apply get_In in H. rewrite Forall_forall in W. specialize (W _ H). simpl in W. tauto.
Qed.
Lemma s_insert_forall : forall (P : N -> Prop) x s, P x -> Forall P s -> Forall P (s_insert x s).
Proof. intros. rewrite Forall_forall in *. intros y Hy. apply s_insert_In in Hy. destruct Hy as [->|]; auto. Qed.
Lemma s_union_forall : forall (P : N -> Prop) a b, Forall P a -> Forall P b -> Forall P (s_union a b).
Proof. intros. rewrite Forall_forall in *. intros y Hy. apply s_union_In in Hy. destruct Hy; auto. Qed.
Lemma filter_forall : forall (P : N -> Prop) f a, Forall P a -> Forall P (filter f a).
Proof. intros. rewrite Forall_forall in *. intros y Hy. apply filter_In in Hy. apply H. tauto. Qed.
Lemma s_diff_wf : forall s r, sel_wf (Partial s) -> sel_wf (Partial (s_diff s r)).
Proof. intros s r [A B]. split; [now apply sinc_filter|now apply filter_forall]. Qed.
Lemma bm_full_wf : sel_wf (Partial bm_full).
Proof. split; [apply bm_full_sinc|]. apply Forall_forall. intros x Hx. rewrite bm_full_In in Hx. exact Hx. Qed.

Theorem insert_wf : forall m v, t_wf m -> t_wf (fst (t_insert v m)).
Proof.
  intros m v W. unfold t_insert. assert (Hf := fragment_id_bound v). assert (Hr := row_offset_bound v).
  destruct (get (fragment_id v) m) as [[|s]|] eqn:E; cbn [fst]; auto.
  - apply put_t_wf; auto. destruct (get_sel_wf _ _ _ W E) as [[A B] _]. split; [now apply s_insert_sinc|now apply s_insert_forall].
  - apply put_t_wf; auto. split; [simpl; tauto|constructor; auto].
Qed.
Theorem remove_wf : forall m v, t_wf m -> t_wf (fst (t_remove v m)).
Proof.
  intros m v W. unfold t_remove. assert (Hf := fragment_id_bound v).
  destruct (get (fragment_id v) m) as [[|s]|] eqn:E; cbn [fst]; auto.
  - apply put_t_wf; auto. apply s_diff_wf, bm_full_wf.
  - destruct (get_sel_wf _ _ _ W E) as [Hs _]. assert (Hd := s_diff_wf s [row_offset v] Hs).
    destruct (s_diff s [row_offset v]); [now apply filter_t_wf|now apply put_t_wf].
Qed.
Theorem sub_wf : forall b a, t_wf a -> t_wf (t_sub a b).
Proof.
  unfold t_sub. induction b as [|p b IH]; intros a W; cbn [fold_left]; auto. apply IH. unfold sub_entry.
  destruct (get (fst p) a) as [[|s]|] eqn:E; auto.
  - destruct (get_sel_wf _ _ _ W E) as [_ Hk]. destruct (snd p); [now apply filter_t_wf|].
    apply put_t_wf; auto. apply s_diff_wf, bm_full_wf.
  - destruct (get_sel_wf _ _ _ W E) as [Hs Hk]. destruct (snd p) as [|r]; [now apply filter_t_wf|].
    assert (Hd := s_diff_wf s r Hs). destruct (s_diff s r); [now apply filter_t_wf|now apply put_t_wf].
Qed.
Theorem or_wf : forall b a, t_wf a -> t_wf b -> t_wf (t_or a b).
Proof.
  unfold t_or. induction b as [|p b IH]; intros a Wa Wb; cbn [fold_left]; auto. destruct Wb as [[_ W1] W2].
  inversion W2 as [|? ? [Hk Hs] W3]; subst. apply IH; [|split; auto]. unfold or_entry.
  destruct (get (fst p) a) as [[|s]|] eqn:E; auto.
  - destruct (get_sel_wf _ _ _ Wa E) as [[A B] _]. destruct (snd p) as [|r]; auto. apply put_t_wf; auto.
    destruct Hs as [C D]. split; [now apply s_union_sinc|now apply s_union_forall].
  - apply put_t_wf; auto.
Qed.
Theorem and_wf : forall a b, t_wf a -> t_wf b -> t_wf (t_and a b).
Proof.
  intros a b Wa Wb. unfold t_and. apply filter_t_wf. assert (W := filter_t_wf (fun p => has (fst p) b) a Wa).
  destruct W as [W1 W2]. split; [unfold am_wf; now rewrite keys_map_val|].
  rewrite Forall_forall in *. intros p Hp. apply in_map_iff in Hp. destruct Hp as [q [<- Hq]]. cbn [fst snd].
  destruct (W2 _ Hq) as [Hk Hs]. split; auto. unfold and_entry. destruct (get (fst q) b) as [[|r]|] eqn:E; auto.
  destruct (get_sel_wf _ _ _ Wb E) as [Hr _]. destruct (snd q) as [|s]; auto. destruct Hs as [A B].
  split; [now apply sinc_filter|now apply filter_forall].
Qed.

(** * Enumeration: row_ids and len *)
Lemma sequence_opt_cons : forall {A} (x : option A) l, sequence_opt (x :: l) = obind x (fun a => omap (cons a) (sequence_opt l)).
Proof. intros A [x|] l; simpl; auto. Qed.

Lemma row_iter_In : forall k s v, k < two32 -> Forall (fun x => x < two32) s -> v < two64 ->
  (In v (map (new_from_parts k) s) <-> fragment_id v = k /\ In (row_offset v) s).
Proof.
  intros k s v Hk Hs Hv. rewrite in_map_iff. rewrite Forall_forall in Hs. split.
  - intros [o [<- Ho]]. destruct (address_roundtrip k o Hk (Hs _ Ho)) as [_ [-> ->]]. auto.
  - intros [<- H]. exists (row_offset v). split; auto. now apply address_split.
Qed.

Theorem row_ids_spec : forall m ids, t_wf m -> t_row_ids m = Some ids ->
  sinc ids /\ t_len m = Some (N.of_nat (length ids)) /\
  (forall v, v < two64 -> (In v ids <-> t_contains v m = true)).
Proof.
  unfold t_row_ids. induction m as [|[k s] m IH]; intros ids W H.
  - injection H as <-. split; [exact I|]. split; [reflexivity|]. intros v _. simpl. intuition discriminate.
  - cbn [map] in H. rewrite sequence_opt_cons in H. destruct W as [[W1 W2] W3]. inversion W3 as [|? ? [Hk Hs] W4]; subst.
    unfold row_iter at 1 in H. cbn [fst snd] in *. destruct s as [|s]; [discriminate|]. cbn [obind] in H.
    destruct (sequence_opt (map row_iter m)) as [ls|] eqn:E; [|discriminate]. cbn [omap] in H. injection H as <-.
    destruct (IH (concat ls)) as [A [B C]]; [split; auto|reflexivity|]. cbn [concat]. destruct Hs as [S1 S2].
    assert (Hrest : forall v, In v (concat ls) -> v < two64 /\ k < fragment_id v).
    { intros v Hv. apply in_concat in Hv. destruct Hv as [l [Hl Hv]].
      assert (HE : exists q, In q m /\ row_iter q = Some l).
      { clear - E Hl. revert ls E Hl. induction m as [|q m IH]; intros ls E Hl; cbn [map] in E.
        - injection E as <-. destruct Hl.
        - rewrite sequence_opt_cons in E. destruct (row_iter q) as [x|] eqn:E2; [|discriminate]. cbn [obind] in E.
          destruct (sequence_opt (map row_iter m)) as [y|] eqn:E3; [|discriminate]. injection E as <-.
          destruct Hl as [<-|Hl]; [exists q; split; [now left|auto]|]. destruct (IH _ eq_refl Hl) as [q' [A B]]. exists q'. split; [now right|auto]. }
      destruct HE as [[k' s'] [Hq Eq]]. unfold row_iter in Eq. cbn [fst snd] in Eq. destruct s' as [|s']; [discriminate|].
      injection Eq as <-. rewrite Forall_forall in W4. destruct (W4 _ Hq) as [Hk' [_ Hs']]. cbn [fst snd] in *.
      apply in_map_iff in Hv. destruct Hv as [o [<- Ho]]. rewrite Forall_forall in Hs'.
      destruct (address_roundtrip k' o Hk' (Hs' _ Ho)) as [X [-> _]]. split; auto. apply W1.
      apply (in_map fst) in Hq. exact Hq. }
    split; [|split].
    + apply sinc_app. split; [|split; auto].
      * clear - S1 S2 Hk. induction s as [|o s IH]; [exact I|]. destruct S1 as [A B]. inversion S2; subst. cbn [map]. split; [|auto].
        intros y Hy. apply in_map_iff in Hy. destruct Hy as [o' [<- Ho']]. rewrite Forall_forall in H2.
        apply address_order; auto.
      * intros x y Hx Hy. destruct (Hrest y Hy) as [Y1 Y2]. rewrite <- (address_split y Y1).
        apply in_map_iff in Hx. destruct Hx as [o [<- Ho]]. rewrite Forall_forall in S2.
        apply address_order; auto; try apply fragment_id_bound; try apply row_offset_bound.
    + cbn [t_len]. rewrite B. cbn [omap]. rewrite app_length, map_length. f_equal. lia.
    + intros v Hv. rewrite in_app_iff, (row_iter_In k s v Hk S2 Hv), (C v Hv), !contains_get. cbn [get].
      destruct (N.eqb_spec (fragment_id v) k) as [e|e].
      * cbn [sel_has]. rewrite memN_In. split; [|tauto]. intros [H|H]; [tauto|].
        destruct (C v Hv) as [_ H']. rewrite contains_get in H'. specialize (H' H). apply Hrest in H'. lia.
      * split; [intros [[H _]|H]; [congruence|auto]|auto].
Qed.

Theorem row_ids_none : forall m, t_row_ids m = None <-> exists f, In (f, Full) m.
Proof.
  unfold t_row_ids. induction m as [|[k s] m IH]; cbn [map].
  - simpl. split; [discriminate|intros [f []]].
  - rewrite sequence_opt_cons. unfold row_iter at 1. cbn [snd]. destruct s as [|s]; cbn [obind].
    + split; auto. intros _. exists k. now left.
    + destruct (sequence_opt (map row_iter m)); cbn [omap] in *.
      * split; [discriminate|]. intros [f [H|H]]; [discriminate|]. exfalso. assert (HH : Some (concat l) = None) by (apply IH; eauto). discriminate.
      * split; auto. intros _. destruct (proj1 IH eq_refl) as [f Hf]. exists f. now right.
Qed.
