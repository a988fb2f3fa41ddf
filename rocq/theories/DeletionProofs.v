(* Deletion vectors are sets (C22); logical offsets (C19), fragment take (C20),
   logical ranges (C21) and fragment deletes (C24). *)
From Coq Require Import List Arith NArith Bool Lia Permutation.
From Coq Require Import ZifyBool ZifyN ZifyNat.
From Verif Require Import Lib AMap RowIdsModel SerdeModel DeletionModel DeletionSpec.
Import ListNotations.
Local Open Scope N_scope.
Local Opaque threshold.

(* what the representations guarantee *)
Definition dv_wf (d : dv) : Prop :=
  match d with NoDel => True | DSet s => NoDup s | DBitmap b => sinc b end.
(* the set a deletion vector denotes *)
Definition dv_has (d : dv) (x : N) : Prop := In x (dv_items d).

Lemma wf_NoDup : forall d, dv_wf d -> NoDup (dv_items d).
Proof. intros [|s|b] H; simpl in *; auto; [constructor|]. now apply sinc_NoDup. Qed.

Lemma contains_spec : forall d i, dv_contains d i = true <-> dv_has d i.
Proof. intros [|s|b] i; unfold dv_has; simpl; rewrite ?memN_In; [split; [discriminate|tauto]|tauto|tauto]. Qed.
Lemma contains_memN : forall d i, dv_contains d i = memN i (dv_items d).
Proof. intros [|s|b] i; reflexivity. Qed.

Lemma hs_insert_In : forall s x y, In y (hs_insert s x) <-> In y s \/ y = x.
Proof.
  intros s x y. unfold hs_insert. destruct (memN x s) eqn:E.
  - apply memN_In in E. split; [tauto|]. intros [H| ->]; auto.
  - rewrite in_app_iff. simpl. intuition.
Qed.
Lemma NoDup_snoc : forall {A} (s : list A) x, NoDup s -> ~ In x s -> NoDup (s ++ [x]).
Proof.
  intros A s x H1 H2. apply (Permutation_NoDup (l := x :: s)).
  - change (x :: s) with ([x] ++ s). apply Permutation_app_comm.
  - now constructor.
Qed.
Lemma hs_insert_NoDup : forall s x, NoDup s -> NoDup (hs_insert s x).
Proof.
  intros s x H. unfold hs_insert. destruct (memN x s) eqn:E; auto. apply memN_false in E. now apply NoDup_snoc.
Qed.
Lemma hs_extend_In : forall l s y, In y (hs_extend s l) <-> In y s \/ In y l.
Proof.
  induction l; intros s y; cbn [hs_extend fold_left]; [simpl; tauto|].
  change (fold_left hs_insert l (hs_insert s a)) with (hs_extend (hs_insert s a) l).
  rewrite IHl, hs_insert_In. simpl. intuition.
Qed.
Lemma hs_extend_NoDup : forall l s, NoDup s -> NoDup (hs_extend s l).
Proof.
  induction l; intros s H; cbn [hs_extend fold_left]; auto.
  apply (IHl (hs_insert s a)). now apply hs_insert_NoDup.
Qed.

(* the contract of Iterator::size_hint *)
Definition hint_ok (n lower : nat) (upper : option nat) : Prop :=
  (lower <= n)%nat /\ (forall u, upper = Some u -> (n <= u)%nat).

Theorem extend_spec : forall d items lower upper, dv_wf d -> hint_ok (length items) lower upper ->
  dv_wf (dv_extend d items lower upper) /\
  forall x, dv_has (dv_extend d items lower upper) x <-> dv_has d x \/ In x items.
Proof.
  intros d items lower upper W [_ H]. destruct d as [|s|b]; cbn [dv_extend].
  - destruct upper as [[|u]|].
    + destruct items; [|specialize (H _ eq_refl); simpl in H; lia]. split; [exact I|]. unfold dv_has; simpl; tauto.
    + destruct (threshold <=? lower)%nat; [|destruct (S u <? threshold)%nat; [|destruct (threshold <? _)%nat]];
        (split; [simpl; auto using s_of_list_sinc; apply hs_extend_NoDup; constructor|]);
        intros x; unfold dv_has; simpl; rewrite ?s_of_list_In, ?hs_extend_In; simpl; tauto.
    + destruct (threshold <=? lower)%nat; [|destruct (threshold <? _)%nat];
        (split; [simpl; auto using s_of_list_sinc; apply hs_extend_NoDup; constructor|]);
        intros x; unfold dv_has; simpl; rewrite ?s_of_list_In, ?hs_extend_In; simpl; tauto.
  - destruct (threshold <? _)%nat; (split; [simpl; auto using s_of_list_sinc, hs_extend_NoDup|]);
      intros x; unfold dv_has; simpl; rewrite ?s_of_list_In, hs_extend_In; tauto.
  - split; [now apply s_union_sinc|]. intros x. unfold dv_has; simpl. rewrite s_union_In. tauto.
Qed.

(* any history of extends *)
Definition dv_history (d : dv) (h : list (list N * nat * option nat)) : dv :=
  fold_left (fun d '(items, lo, up) => dv_extend d items lo up) h d.
Theorem history_spec : forall h d, dv_wf d ->
  (forall items lo up, In (items, lo, up) h -> hint_ok (length items) lo up) ->
  dv_wf (dv_history d h) /\
  forall x, dv_has (dv_history d h) x <-> dv_has d x \/ exists items lo up, In (items, lo, up) h /\ In x items.
Proof.
  induction h as [|[[items lo] up] h IH]; intros d W H.
  - split; auto. intros x. simpl. split; auto. intros [Hx|[? [? [? [[] _]]]]]; auto.
  - destruct (extend_spec d items lo up W) as [W' E]; [apply H; now left|].
    change (dv_history d ((items, lo, up) :: h)) with (dv_history (dv_extend d items lo up) h).
    destruct (IH _ W' (fun i l u Hi => H i l u (or_intror Hi))) as [W2 E2]. split; auto.
    intros x. rewrite E2, E. split.
    + intros [[Hx|Hx]|[i [l [u [Hi Hx]]]]]; auto; right; eauto 10 using in_eq, in_cons.
    + intros [Hx|[i [l [u [[Hi|Hi] Hx]]]]]; auto; [injection Hi; intros; subst; auto|right; eauto].
Qed.

(* sorting *)
Lemma ins_sorted_perm : forall x l, Permutation (ins_sorted x l) (x :: l).
Proof.
  induction l as [|y l IH]; simpl; auto. destruct (x <=? y); auto.
  rewrite IH. apply perm_swap.
Qed.
Lemma sort_perm : forall l, Permutation (sort_list l) l.
Proof. induction l; simpl; auto. rewrite ins_sorted_perm. now constructor. Qed.
Lemma ins_sorted_sinc : forall x l, sinc l -> ~ In x l -> sinc (ins_sorted x l).
Proof.
  induction l as [|y l IH]; simpl; intros S Hn; [split; [intros ? []|exact I]|].
  destruct S as [S1 S2]. destruct (x <=? y) eqn:E.
  - split; [|simpl; auto]. intros z [->|Hz]; [lia|]. specialize (S1 _ Hz). lia.
  - split; [|apply IH; auto]. intros z Hz. apply (Permutation_in _ (ins_sorted_perm x l)) in Hz.
    destruct Hz as [->|Hz]; [lia|auto].
Qed.
Lemma sort_sinc : forall l, NoDup l -> sinc (sort_list l).
Proof.
  induction 1; simpl; auto. apply ins_sorted_sinc; auto.
  intros C. apply (Permutation_in _ (sort_perm l)) in C. auto.
Qed.
Lemma sort_In : forall l x, In x (sort_list l) <-> In x l.
Proof. intros. split; apply Permutation_in; [|symmetry]; apply sort_perm. Qed.
Lemma sort_sorted : forall l, sinc l -> sort_list l = l.
Proof.
  intros l H. apply sinc_ext; auto; [apply sort_sinc; now apply sinc_NoDup|]. intros; apply sort_In.
Qed.

Theorem sorted_iter_spec : forall d, dv_wf d ->
  sinc (dv_sorted_iter d) /\ (forall x, In x (dv_sorted_iter d) <-> dv_has d x) /\
  length (dv_sorted_iter d) = dv_len d.
Proof.
  intros [|s|b] W; cbn [dv_sorted_iter]; unfold dv_has, dv_len; simpl in *; repeat split; auto.
  - now apply sort_sinc.
  - apply sort_In.
  - apply sort_In.
  - apply Permutation_length, sort_perm.
Qed.

(* iteration, hence length, depends only on the set *)
Theorem iter_canonical : forall d1 d2, dv_wf d1 -> dv_wf d2 -> (forall x, dv_has d1 x <-> dv_has d2 x) ->
  dv_sorted_iter d1 = dv_sorted_iter d2 /\ dv_len d1 = dv_len d2.
Proof.
  intros d1 d2 W1 W2 E. destruct (sorted_iter_spec d1 W1) as [S1 [I1 L1]], (sorted_iter_spec d2 W2) as [S2 [I2 L2]].
  assert (dv_sorted_iter d1 = dv_sorted_iter d2) as Eq by (apply sinc_ext; auto; intros; rewrite I1, I2; auto).
  split; auto. congruence.
Qed.

Lemma fold_count : forall (f : N -> bool) l acc,
  fold_left (fun acc i => acc + (if f i then 1 else 0)) l acc = acc + N.of_nat (length (filter f l)).
Proof. induction l; intros acc; simpl; [lia|]. rewrite IHl. destruct (f a); simpl; lia. Qed.

Theorem range_card_spec : forall d a b, dv_wf d ->
  dv_range_card d a b = N.of_nat (length (filter (fun x => (a <=? x) && (x <? b)) (dv_items d))).
Proof.
  intros [|s|bm] a b W; cbn [dv_range_card dv_items]; auto. rewrite fold_count. unfold nrng.
  rewrite count_perm by auto. rewrite N.add_0_l. f_equal. f_equal. apply filter_ext. intros x. lia.
Qed.
Theorem contains_range_spec : forall d a b,
  dv_contains_range d a b = true <-> (forall x, a <= x < b -> dv_has d x).
Proof.
  assert (H : forall s a b, forallb (fun i => memN i s) (nrng a b) = true <-> (forall x, a <= x < b -> In x s)).
  { intros s a b. rewrite forallb_forall. unfold nrng. split; intros H x Hx.
    - apply memN_In, H, nrange_In. lia.
    - apply memN_In, H. apply nrange_In in Hx. lia. }
  intros [|s|bm] a b; cbn [dv_contains_range]; unfold dv_has; simpl; [|apply H|apply H].
  rewrite N.leb_le. split; [lia|]. intros H'. destruct (N.le_gt_cases b a); auto. destruct (H' a); lia.
Qed.
Theorem build_predicate_spec : forall d ids m, dv_build_predicate d ids = Some m ->
  m = map (fun id => negb (dv_contains d (id mod two32))) ids.
Proof. intros [|s|b] ids m H; cbn in H; [discriminate| |]; injection H; intros <-; reflexivity. Qed.

Lemma same_set_spec : forall a b, same_set a b = true <-> forall x, In x a <-> In x b.
Proof.
  intros a b. unfold same_set. rewrite andb_true_iff, !forallb_forall. split.
  - intros [H1 H2] x. split; intros H; apply memN_In; auto.
  - intros H. split; intros x Hx; apply memN_In, H; auto.
Qed.
(* equality is equality of sets unless exactly one side is the NoDeletions
   variant *)
Theorem dv_eq_spec : forall a b, (a = NoDel <-> b = NoDel) ->
  (dv_eqb a b = true <-> forall x, dv_has a x <-> dv_has b x).
Proof.
  intros [|x|x] [|y|y] H; cbn [dv_eqb]; unfold dv_has; simpl;
    try (exfalso; destruct H as [H1 H2]; (discriminate H1 + discriminate H2); reflexivity);
    rewrite ?same_set_spec; try tauto.
  - setoid_rewrite s_of_list_In. tauto.
  - setoid_rewrite s_of_list_In. split; intros E z; rewrite E; tauto.
Qed.
Theorem dv_eq_refuted : exists a b, dv_wf a /\ dv_wf b /\ (forall x, dv_has a x <-> dv_has b x) /\ dv_eqb a b = false.
Proof. exists NoDel, (DSet []). repeat split; auto. constructor. Qed.

(* deletion files *)
Theorem deletion_file_roundtrip : forall ipc_write ipc_read bm_write bm_read version id d,
  (forall s, ipc_read (ipc_write s) = Some [s]) ->
  (forall b, sinc b -> bm_read (bm_write b) = Some b) ->
  dv_wf d ->
  match write_deletion_file ipc_write bm_write version id d with
  | None => d = NoDel
  | Some (f, data) => df_num f = Some (dv_len d) /\
      exists d', read_deletion_file ipc_read bm_read f data = Some d' /\ dv_wf d' /\
                 forall x, dv_has d' x <-> dv_has d x
  end.
Proof.
  intros iw ir bw br version id d H1 H2 W. destruct d as [|s|b]; cbn [write_deletion_file]; auto.
  - split; auto. eexists. unfold read_deletion_file. cbn. rewrite H1. split; [reflexivity|]. split.
    + apply hs_extend_NoDup. constructor.
    + intros x. unfold dv_has. simpl. rewrite hs_extend_In. simpl. tauto.
  - split; auto. exists (DBitmap b). unfold read_deletion_file. cbn. rewrite H2 by auto. split; auto. split; auto. tauto.
Qed.

Example dv_ex : let d := dv_history NoDel [([7; 3; 7], 3%nat, Some 3%nat); ([1; 3], 0%nat, None)] in
  dv_sorted_iter d = [1; 3; 7] /\ dv_len d = 3%nat /\ dv_range_card d 2 8 = 2.
Proof. repeat split. Qed.
(* the switch to a bitmap happens *)
Example dv_switch_ex : exists b, dv_extend (DSet [5]) (nrange 100 5000) 5000 (Some 5000%nat) = DBitmap b.
Proof. vm_compute. eauto. Qed.

(* ---- C19 ---- *)
Lemma card_dead : forall d n, dv_wf d -> dv_range_card d 0 n = dead (dv_items d) n.
Proof.
  intros d n W. rewrite range_card_spec by auto. unfold dead. do 2 f_equal. apply filter_ext. intros x. lia.
Qed.

Lemma om_loop_spec : forall fuel d k left mid right a,
  dv_wf d -> kth (dv_items d) k a -> left <= a <= right -> left <= mid <= right ->
  right = k + N.of_nat (dv_len d) \/ right < k + N.of_nat (dv_len d) ->
  k + N.of_nat (dv_len d) + 1 < two32 ->
  (N.to_nat (2 * (right - left) + (if (mid =? right)%N then 1 else 0)) < fuel)%nat ->
  exists left', left <= left' <= a /\
    om_loop fuel d k left mid right = OmOk a {| om_left := left'; om_diff := a - k |}.
Proof.
  induction fuel; intros d k left mid right a W K Ha Hm Hr Hb Hf; [lia|].
  cbn [om_loop]. set (len := N.of_nat (dv_len d)) in *.
  pose proof (wf_NoDup d W) as ND.
  assert (Hd : dv_range_card d 0 (mid + 1) <= len).
  { rewrite card_dead by auto. apply dead_le. }
  replace (two32 <=? mid + 1) with false by lia.
  replace (two32 <=? k + dv_range_card d 0 (mid + 1)) with false by lia.
  assert (Hl : live (dv_items d) (mid + 1) + dv_range_card d 0 (mid + 1) = mid + 1).
  { rewrite card_dead by auto. now apply live_dead. }
  pose proof (kth_succ _ _ _ K) as Ks. destruct (K) as [K1 K2].
  destruct (N.lt_trichotomy mid a) as [L|[L|L]].
  - (* mid before the answer *)
    pose proof (live_mono (dv_items d) (mid + 1) a ltac:(lia)).
    replace (mid ?= k + dv_range_card d 0 (mid + 1)) with Lt by (symmetry; apply N.compare_lt_iff; lia).
    replace (left =? mid + 1) with false by lia. replace (right <? mid + 1) with false by lia.
    pose proof (N.div_le_upper_bound (right - (mid+1)) 2 (right - (mid+1)) ltac:(lia) ltac:(lia)).
    destruct (IHfuel d k (mid + 1) (mid + 1 + (right - (mid + 1)) / 2) right a) as [left' [E1 E2]]; auto; try lia.
    + replace (mid =? right) with false in Hf by lia. destruct (_ =? right); lia.
    + exists left'. split; [lia|auto].
  - (* found *)
    subst mid.
    replace (a ?= k + dv_range_card d 0 (a + 1)) with Eq by (symmetry; apply N.compare_eq_iff; lia).
    rewrite contains_memN. apply memN_false in K1. rewrite K1. cbn. exists left. split; [lia|reflexivity].
  - pose proof (live_mono (dv_items d) (a + 1) (mid + 1) ltac:(lia)).
    pose proof (N.div_lt_upper_bound (mid - left) 2 (mid - left) ltac:(lia) ltac:(lia)) as Hdiv.
    assert (Hstep : exists left', left <= left' <= a /\
      om_loop fuel d k left (left + (mid - left) / 2) mid = OmOk a {| om_left := left'; om_diff := a - k |}).
    { apply IHfuel; auto; try lia. 
      destruct (left + (mid - left) / 2 =? mid) eqn:E1; [lia|]. destruct (mid =? right) eqn:E2; rewrite ?E2 in Hf; lia. }
    destruct (N.compare_spec mid (k + dv_range_card d 0 (mid + 1))) as [E|E|E]; try lia.
    + (* equal but deleted *)
      rewrite contains_memN. destruct (memN mid (dv_items d)) eqn:Em; cbn [negb].
      * replace (mid <? left) with false by lia. auto.
      * exfalso. rewrite live_succ, Em in Hl. pose proof (live_mono (dv_items d) (a + 1) mid ltac:(lia)). lia.
    + replace (mid <? left) with false by lia. auto.
Qed.

Definition om_inv (d : dv) (k0 : N) (m : mapper) : Prop :=
  om_left m <= k0 + om_diff m /\ om_diff m <= N.of_nat (dv_len d) /\
  (forall k a, k0 <= k -> kth (dv_items d) k a -> om_left m <= a).

Lemma map_offset_spec : forall d m k0 k p, dv_wf d -> (forall x, In x (dv_items d) -> x < p) -> p < two32 ->
  om_inv d k0 m -> k0 <= k -> k < live (dv_items d) p ->
  exists a m', kth (dv_items d) k a /\ map_offset d m k = OmOk a m' /\ om_inv d k m'.
Proof.
  intros d m k0 k p W Hp Hp2 [I1 [I2 I3]] Hk Hl.
  destruct (kth_exists _ _ _ Hl) as [a [La Ka]].
  pose proof (wf_NoDup d W) as ND.
  pose proof (live_dead (dv_items d) p ND) as E. rewrite dead_all in E by auto.
  set (len := N.of_nat (dv_len d)). assert (Hlen : N.of_nat (length (dv_items d)) = len) by reflexivity.
  unfold map_offset. replace (two32 <=? k + om_diff m) with false by lia.
  fold len. replace (two32 <=? k + len) with false by lia. cbn [orb].
  assert (Ha : a = k + dead (dv_items d) a). { destruct Ka as [_ Ka]. pose proof (live_dead (dv_items d) a ND). lia. }
  pose proof (dead_le (dv_items d) a). pose proof (I3 k a Hk Ka).
  destruct (om_loop_spec (N.to_nat (2 * (k + len - om_left m) + 2)) d k (om_left m) (k + om_diff m) (k + len) a) as [l' [L1 L2]];
    auto; try lia.
  { destruct (_ =? _); lia. }
  exists a. eexists. split; auto. split; [exact L2|]. split; cbn; [lia|]. split; [lia|].
  intros k' a' Hk' Ka'. pose proof (kth_mono _ _ _ _ _ Ka Ka' Hk'). lia.
Qed.

(* a fragment with p < 2^32 rows: mapping any non-decreasing list of logical
   offsets gives the corresponding surviving rows; no panic, no divergence *)
Fixpoint nondec (l : list N) : Prop :=
  match l with x :: ((y :: _) as t) => x <= y /\ nondec t | _ => True end.

Lemma map_offsets_gen : forall ks d m k0 p, dv_wf d -> (forall x, dv_has d x -> x < p) -> p < two32 ->
  om_inv d k0 m -> nondec (k0 :: ks) -> (forall k, In k ks -> k < live (dv_items d) p) ->
  exists res, map_offsets d m ks = Some res /\
    map Some res = map (fun k => nth_error (alive (dv_items d) p) (N.to_nat k)) ks.
Proof.
  induction ks as [|k ks IH]; intros d m k0 p W Hp Hp2 Hi Hs Hl; [exists []; auto|].
  cbn [nondec] in Hs. destruct Hs as [Hs1 Hs2].
  destruct (map_offset_spec d m k0 k p W Hp Hp2 Hi Hs1) as [a [m' [Ka [E Hi']]]]; [apply Hl; now left|].
  destruct (IH d m' k p W Hp Hp2 Hi' Hs2) as [res [E2 E3]]; [intros; apply Hl; now right|].
  exists (a :: res). cbn [map_offsets map]. rewrite E, E2. split; auto. f_equal; auto.
  symmetry. apply kth_nth. rewrite N2Nat.id. split; auto.
  destruct (kth_exists _ _ _ (Hl k (or_introl eq_refl))) as [a' [L' K']]. now rewrite (kth_unique _ _ _ _ Ka K').
Qed.

Theorem map_offsets_spec : forall ks d p, dv_wf d -> (forall x, dv_has d x -> x < p) -> p < two32 ->
  nondec ks -> (forall k, In k ks -> k < N.of_nat (length (alive (dv_items d) p))) ->
  exists res, map_offsets d om_new ks = Some res /\
    map Some res = map (fun k => nth_error (alive (dv_items d) p) (N.to_nat k)) ks.
Proof.
  intros ks d p W Hp Hp2 Hs Hl. apply (map_offsets_gen ks d om_new 0 p); auto.
  - repeat split; cbn; lia.
  - destruct ks; simpl; auto. simpl in Hs. split; auto. lia.
Qed.

Example map_offsets_ex : map_offsets (DSet [4; 0; 2; 1]) om_new [0; 0; 1; 3] = Some [3; 3; 5; 7].
Proof. vm_compute. reflexivity. Qed.

(* the documented requirement of non-decreasing offsets is needed *)
Theorem map_offsets_decreasing_refuted : exists d ks p, dv_wf d /\ (forall x, dv_has d x -> x < p) /\ p < two32 /\
  (forall k, In k ks -> k < N.of_nat (length (alive (dv_items d) p))) /\
  map_offsets d om_new ks = None.
Proof.
  exists (DBitmap [1; 3; 5; 7]), [4; 0], 30. split; [repeat split; vm_compute; intuition (subst; reflexivity)|].
  split; [intros x Hx; vm_compute in Hx; intuition (subst; reflexivity)|].
  split; [reflexivity|]. split; [|vm_compute; reflexivity].
  intros k Hk. vm_compute in Hk. intuition (subst; vm_compute; reflexivity).
Qed.

(* ---- C20 ---- *)
Lemma live_same : forall d n m, n <= m -> (forall x, n <= x < m -> In x d) -> live d m = live d n.
Proof.
  intros d n m. induction m using N.peano_ind; intros L H; [f_equal; lia|].
  destruct (N.eq_dec n (N.succ m)); [subst; auto|]. rewrite <- N.add_1_r, live_succ, IHm; [|lia|intros; apply H; lia].
  replace (memN m d) with true; [lia|]. symmetry. apply memN_In, H. lia.
Qed.

Lemma skip_deleted_spec : forall rest d n, sinc rest -> (forall x, In x rest <-> In x d /\ n <= x) ->
  let '(rest', n') := skip_deleted rest n in
  n <= n' /\ ~ In n' d /\ sinc rest' /\ (forall x, In x rest' <-> In x d /\ n' < x) /\ live d n' = live d n.
Proof.
  induction rest as [|y rest IH]; intros d n S H; cbn [skip_deleted].
  - assert (~ In n d) by (intros C; apply (proj2 (H n)); split; auto; lia).
    split; [lia|]. split; auto. split; [exact I|]. split; [|reflexivity].
    intros x. split; [intros []|]. intros [H1 H2]. apply (H x). split; auto. lia.
  - destruct (y =? n) eqn:E.
    + apply N.eqb_eq in E. subst y. destruct S as [S1 S2].
      assert (Hn : In n d) by (apply H; now left).
      specialize (IH d (n + 1) S2). destruct (skip_deleted rest (n + 1)) as [rest' n'].
      destruct IH as [I1 [I2 [I3 [I4 I5]]]].
      * intros x. split.
        -- intros Hx. split; [apply H; now right|]. specialize (S1 _ Hx). lia.
        -- intros [Hx1 Hx2]. destruct (proj2 (H x)) as [->|Hx]; auto; [split; auto; lia|lia].
      * repeat split; auto; try lia; try (apply I4; auto).
        rewrite I5. apply live_same; [lia|]. intros x Hx. replace x with n by lia. auto.
    + assert (~ In n d).
      { intros C. destruct (proj2 (H n)) as [->|Hx]; [split; auto; lia|lia|]. destruct S as [S1 _].
        specialize (S1 _ Hx). assert (In y d /\ n <= y) by (apply H; now left). lia. }
      split; [lia|]. split; auto. split; auto. split; [|reflexivity]. intros x. rewrite H. split.
      * intros [C1 C2]. split; auto. destruct (N.eq_dec n x); [subst; tauto|lia].
      * intros [C1 C2]. split; auto. lia.
Qed.

Lemma take_advance_spec : forall i rest d n k, sinc rest -> (forall x, In x rest <-> In x d /\ n < x) ->
  live d (n + 1) + N.of_nat i = k + 1 -> (i = O -> ~ In n d) -> kth d k (take_advance i rest n).
Proof.
  induction i; intros rest d n k S H Hl Hn; cbn [take_advance].
  - split; auto. rewrite live_succ in Hl. specialize (Hn eq_refl). apply memN_false in Hn. rewrite Hn in Hl. lia.
  - pose proof (skip_deleted_spec rest d (n + 1) S) as Hs. destruct (skip_deleted rest (n + 1)) as [rest' n'].
    destruct Hs as [I1 [I2 [I3 [I4 I5]]]]; [intros x; rewrite H; intuition lia|].
    apply IHi; auto. rewrite live_succ. apply memN_false in I2. rewrite I2. lia.
Qed.

Lemma filter_prefix : forall l n, sinc l -> 
  skipn (length (filter (fun v => v <=? n) l)) l = filter (fun v => n <? v) l.
Proof.
  induction l as [|x l IH]; intros n S; auto. cbn [filter]. destruct S as [S1 S2]. destruct (x <=? n) eqn:E.
  - replace (n <? x) with false by lia. cbn [length skipn]. auto.
  - replace (n <? x) with true by lia. rewrite filter_all_false.
    + cbn [length skipn]. f_equal. symmetry. apply filter_all_true. intros y Hy. specialize (S1 _ Hy). lia.
    + intros y Hy. specialize (S1 _ Hy). lia.
Qed.

Lemma take_index_spec : forall d idx, sinc d -> kth d idx (take_index d idx).
Proof.
  intros d idx S. unfold take_index. rewrite filter_prefix by auto. apply take_advance_spec.
  - now apply sinc_filter.
  - intros x. rewrite filter_In, N.ltb_lt. tauto.
  - pose proof (live_dead d (idx + 1) (sinc_NoDup _ S)) as E. unfold dead in E.
    rewrite (filter_ext (fun v => v <=? idx) (fun x => x <? idx + 1)) by (intros; lia). lia.
  - intros E C. apply length_zero_iff_nil in E. 
    assert (In idx (filter (fun v => v <=? idx) d)) as F by (apply filter_In; split; auto; lia). rewrite E in F. destruct F.
Qed.

Theorem take_indices_spec : forall d p ks, dv_wf d ->
  (forall k, In k ks -> k < N.of_nat (length (alive (dv_items d) p))) ->
  map Some (take_indices (Some d) ks) = map (fun k => nth_error (alive (dv_items d) p) (N.to_nat k)) ks.
Proof.
  intros d p ks W H. cbn [take_indices]. rewrite map_map. apply map_ext_in. intros k Hk. specialize (H k Hk).
  destruct (kth_exists (dv_items d) p k H) as [a [La Ka]].
  symmetry. apply kth_nth. rewrite N2Nat.id.
  destruct (sorted_iter_spec d W) as [S [I _]]. rewrite sort_sorted by auto.
  pose proof (take_index_spec (dv_sorted_iter d) k S) as K.
  assert (Eq : forall n, live (dv_sorted_iter d) n = live (dv_items d) n).
  { intros n. unfold live, alive. do 2 f_equal. apply filter_ext. intros x. f_equal.
    destruct (memN x (dv_items d)) eqn:E; [apply memN_In, I, memN_In; auto|].
    apply memN_false. intros C. apply I in C. apply memN_false in E. auto. }
  assert (K' : kth (dv_items d) k (take_index (dv_sorted_iter d) k)).
  { destruct K as [K1 K2]. split; [intros C; apply K1, I, C|rewrite <- Eq; auto]. }
  split; auto. now rewrite (kth_unique _ _ _ _ K' Ka).
Qed.

Example take_indices_ex : take_indices (Some (DSet [5; 2; 3])) [4; 0; 2; 2] = [7; 0; 4; 4].
Proof. vm_compute. reflexivity. Qed.

(* ---- C21 ---- *)
Lemma dead_app : forall d1 d2 n, dead (d1 ++ d2) n = dead d1 n + dead d2 n.
Proof. intros. unfold dead. rewrite filter_app, app_length. lia. Qed.
Lemma dead_none : forall d n, (forall x, In x d -> n <= x) -> dead d n = 0.
Proof. intros. unfold dead. rewrite filter_all_false; auto. intros x Hx. specialize (H _ Hx). lia. Qed.
Lemma dead_notin : forall d n, ~ In n d -> dead d (n + 1) = dead d n.
Proof.
  intros d n H. unfold dead. do 2 f_equal. apply filter_ext_in. intros x Hx.
  assert (x <> n) by (intros ->; auto). lia.
Qed.
Lemma dead_one : forall v n, dead [v] n = if v <? n then 1 else 0.
Proof. intros. unfold dead. simpl. destruct (v <? n); reflexivity. Qed.

Lemma patch_range_gen : forall rest d1 s e a b, sinc (d1 ++ rest) -> (forall x, In x d1 -> x < e) -> s <= e ->
  s = a + dead d1 s -> e = b + dead d1 e ->
  let '(s', e') := patch_range rest s e in
  s' <= e' /\ s' = a + dead (d1 ++ rest) s' /\ e' = b + dead (d1 ++ rest) e'.
Proof.
  induction rest as [|v rest IH]; intros d1 s e a b S H1 Hse Hs He; cbn [patch_range].
  - rewrite app_nil_r. auto.
  - assert (Sv : forall x, In x d1 -> x < v).
    { apply sinc_app in S. destruct S as [_ [_ S]]. intros x Hx. apply S; auto. now left. }
    assert (S' : sinc ((d1 ++ [v]) ++ rest)) by (rewrite <- app_assoc; exact S).
    assert (Hn : forall m, v <= m -> dead (d1 ++ [v]) (m + 1) = dead d1 m + 1).
    { intros m Hm. rewrite dead_app, dead_one. replace (v <? m + 1) with true by lia. rewrite dead_notin; auto.
      intros C. specialize (Sv _ C). lia. }
    destruct (v <=? s) eqn:E1; [|destruct (v <? e) eqn:E2].
    + specialize (IH (d1 ++ [v]) (s + 1) (e + 1) a b S'). rewrite <- app_assoc in IH. apply IH.
      * intros x Hx. apply in_app_iff in Hx. destruct Hx as [Hx|[->|[]]]; [|lia]. specialize (H1 _ Hx). lia.
      * lia.
      * rewrite Hn by lia. lia.
      * rewrite Hn by lia. lia.
    + specialize (IH (d1 ++ [v]) s (e + 1) a b S'). rewrite <- app_assoc in IH. apply IH.
      * intros x Hx. apply in_app_iff in Hx. destruct Hx as [Hx|[->|[]]]; [|lia]. specialize (H1 _ Hx). lia.
      * lia.
      * rewrite dead_app, dead_one. replace (v <? s) with false by lia. lia.
      * rewrite Hn by lia. lia.
    + assert (Hr : forall n, n <= e -> dead (v :: rest) n = 0).
      { intros n Hn'. apply dead_none. intros x [->|Hx]; [lia|]. apply sinc_app in S. destruct S as [_ [[S _] _]].
        specialize (S _ Hx). lia. }
      rewrite !dead_app, !Hr by lia. split; auto. lia.
Qed.

(* reading logical rows a..b of a fragment with p physical rows: the physical
   range read, with deleted rows dropped, is the a-th to (b-1)-th surviving row *)
Theorem patch_range_spec : forall d p a b, dv_wf d -> (forall x, dv_has d x -> x < p) ->
  a <= b -> b <= N.of_nat (length (alive (dv_items d) p)) ->
  let '(s, e) := patch_range (dv_sorted_iter d) a b in
  e <= p /\
  filter (fun x => negb (dv_contains d x)) (nrange s (N.to_nat (e - s))) =
  firstn (N.to_nat (b - a)) (skipn (N.to_nat a) (alive (dv_items d) p)).
Proof.
  intros d p a b W Hp Hab Hb. destruct (sorted_iter_spec d W) as [S [I L]].
  pose proof (patch_range_gen (dv_sorted_iter d) [] a b a b S ltac:(intros ? []) Hab) as G.
  destruct (patch_range (dv_sorted_iter d) a b) as [s e]. cbn [app] in G.
  destruct G as [G1 [G2 G3]]; [change (dead [] a) with 0; lia|change (dead [] b) with 0; lia|].
  assert (Eal : forall n, alive (dv_items d) n = alive (dv_sorted_iter d) n).
  { intros n. unfold alive. apply filter_ext. intros x. f_equal.
    destruct (memN x (dv_sorted_iter d)) eqn:E; [apply memN_In, I, memN_In; auto|].
    apply memN_false. intros C. apply I in C. apply memN_false in E. auto. }
  rewrite Eal in *. set (dl := dv_sorted_iter d) in *.
  pose proof (sinc_NoDup _ S) as ND.
  pose proof (live_dead dl s ND) as Ls. pose proof (live_dead dl e ND) as Le. pose proof (live_dead dl p ND) as Lp.
  rewrite (dead_all dl p) in Lp by (intros; apply Hp, I; auto).
  pose proof (dead_le dl e) as De. fold (live dl p) in Hb.
  assert (Hep : e <= p) by lia. split; auto.
  destruct (alive_prefix dl e p Hep) as [r Er].
  assert (Emid : alive dl e = alive dl s ++ filter (fun x => negb (memN x dl)) (nrange s (N.to_nat (e - s)))).
  { unfold alive. replace (N.to_nat e) with (N.to_nat s + N.to_nat (e - s))%nat by lia.
    rewrite nrange_app, filter_app. repeat f_equal. lia. }
  rewrite Er, Emid.
  assert (Hls : length (alive dl s) = N.to_nat a) by (unfold live in Ls; lia).
  assert (Hle : length (alive dl e) = N.to_nat b) by (unfold live in Le; lia).
  rewrite Emid, app_length in Hle.
  rewrite <- app_assoc, skipn_app, skipn_all2 by lia. replace (N.to_nat a - length (alive dl s))%nat with 0%nat by lia.
  cbn [skipn app]. rewrite firstn_app, firstn_all2 by lia.
  replace (N.to_nat (b - a) - length _)%nat with 0%nat by lia. cbn [firstn]. rewrite app_nil_r.
  apply filter_ext. intros x. f_equal. rewrite contains_memN.
  destruct (memN x dl) eqn:E; [apply memN_In, I, memN_In; auto|].
  apply memN_false. intros C. apply I in C. apply memN_false in E. auto.
Qed.

Example patch_range_ex : patch_range [0; 2; 3; 7] 1 4 = (4, 7)
  /\ filter (fun x => negb (memN x [0; 2; 3; 7])) (nrange 4 3) = [4; 5; 6]
  /\ alive [0; 2; 3; 7] 9 = [1; 4; 5; 6; 8].
Proof. repeat split. Qed.

(* ---- C24 ---- *)
Lemma len_lt_iff : forall d1 d2, dv_wf d1 -> dv_wf d2 -> (forall x, dv_has d1 x -> dv_has d2 x) ->
  (dv_len d1 <= dv_len d2)%nat /\ (dv_len d1 = dv_len d2 -> forall x, dv_has d2 x -> dv_has d1 x).
Proof.
  intros d1 d2 W1 W2 H. unfold dv_len. split.
  - apply NoDup_incl_length; auto using wf_NoDup.
  - intros E. apply NoDup_length_incl; auto using wf_NoDup. unfold dv_len in E. lia.
Qed.

Lemma scan_extend : forall bs d, dv_wf d ->
  let d' := fold_left (fun d b => let l := map (fun v => v mod two32) b in
                                      dv_extend d l (length l) (Some (length l))) bs d in
  dv_wf d' /\ forall x, dv_has d' x <-> dv_has d x \/ In x (map (fun v => v mod two32) (concat bs)).
Proof.
  induction bs as [|b bs IH]; intros d W; cbn [fold_left concat].
  - split; auto. simpl. tauto.
  - set (l := map (fun v => v mod two32) b).
    destruct (extend_spec d l (length l) (Some (length l)) W) as [W' E].
    { split; auto. intros u [= <-]. auto. }
    destruct (IH _ W') as [W2 E2]. split; auto. intros x. rewrite E2, E, map_app, in_app_iff. tauto.
Qed.

Lemma all_rows : forall d p, dv_wf d -> (forall x, dv_has d x -> x < p) ->
  (N.of_nat (dv_len d) <= p /\ (N.of_nat (dv_len d) = p <-> forall x, x < p -> dv_has d x)).
Proof.
  intros d p W Hp. pose proof (wf_NoDup d W) as ND.
  assert (H1 : (length (dv_items d) <= length (nrange 0 (N.to_nat p)))%nat).
  { apply NoDup_incl_length; auto. intros x Hx. apply nrange_In. specialize (Hp x Hx). lia. }
  rewrite nrange_length in H1. unfold dv_len. split; [lia|]. split.
  - intros E x Hx. apply (NoDup_length_incl ND (l' := nrange 0 (N.to_nat p))).
    + rewrite nrange_length. lia.
    + intros y Hy. apply nrange_In. specialize (Hp y Hy). lia.
    + apply nrange_In. lia.
  - intros H. assert (length (nrange 0 (N.to_nat p)) <= length (dv_items d))%nat.
    { apply NoDup_incl_length; [apply sinc_NoDup, nrange_sinc|]. intros x Hx. apply nrange_In in Hx. apply H. lia. }
    rewrite nrange_length in H0. lia.
Qed.

(* [bs]: the row addresses delivered by the scan, in any order and batching, of
   the surviving rows of fragment [frag] that match *)
Theorem frag_delete_spec : forall frag p d bs (matching : N -> Prop), dv_wf d -> p < two32 ->
  (forall x, dv_has d x -> x < p) -> ~ (forall x, x < p -> dv_has d x) ->
  (forall v, In v (concat bs) <-> exists x, v = frag * two32 + x /\ x < p /\ ~ dv_has d x /\ matching x) ->
  match frag_delete p d (PScan bs) with
  | Removed => forall x, x < p -> dv_has d x \/ matching x
  | Unchanged => forall x, x < p -> ~ dv_has d x -> ~ matching x
  | Updated d' => dv_wf d' /\ (exists x, x < p /\ ~ dv_has d x /\ matching x) /\
                  (exists x, x < p /\ ~ dv_has d x /\ ~ matching x) /\
                  (forall x, dv_has d' x <-> dv_has d x \/ (x < p /\ ~ dv_has d x /\ matching x))
  | DelErr => False
  end.
Proof.
  intros frag p d bs matching W P32 Hp Hnf Hbs. cbn [frag_delete].
  destruct (scan_extend bs d W) as [W' E]. cbv zeta in E, W'.
  set (d' := fold_left _ bs d) in *.
  assert (E' : forall x, dv_has d' x <-> dv_has d x \/ (x < p /\ ~ dv_has d x /\ matching x)).
  { intros x. rewrite E, in_map_iff. split.
    - intros [H|[v [Hv Hi]]]; auto. apply Hbs in Hi. destruct Hi as [y [-> [Hy1 [Hy2 Hy3]]]].
      rewrite N.add_comm, N.mod_add in Hv by (unfold two32; lia). rewrite N.mod_small in Hv by lia. subst y. auto.
    - intros [H|[H1 [H2 H3]]]; auto. right. exists (frag * two32 + x). split.
      + rewrite N.add_comm, N.mod_add by (unfold two32; lia). now rewrite N.mod_small by lia.
      + apply Hbs. eauto. }
  destruct (len_lt_iff d d' W W') as [L1 L2]; [intros x Hx; apply E'; auto|].
  assert (Hp' : forall x, dv_has d' x -> x < p) by (intros x Hx; apply E' in Hx; destruct Hx as [Hx|Hx]; [auto|tauto]).
  destruct (all_rows d' p W' Hp') as [A1 A2].
  destruct (dv_len d' =? dv_len d)%nat eqn:El.
  - intros x Hx Hn Hm. apply Hn, L2; [lia|]. apply E'. auto.
  - unfold write_deletions. destruct ((N.of_nat (dv_len d') =? p) && dv_contains_range d' 0 p) eqn:Er.
    + apply andb_true_iff in Er. destruct Er as [_ Er]. rewrite contains_range_spec in Er.
      intros x Hx. assert (dv_has d' x) as Hd by (apply Er; lia). apply E' in Hd. tauto.
    + assert (Hnp : N.of_nat (dv_len d') <> p).
      { intros C. rewrite C, N.eqb_refl in Er. cbn in Er.
        assert (dv_contains_range d' 0 p = true) by (apply contains_range_spec; intros; apply A2; auto; lia). congruence. }
      replace (p <=? N.of_nat (dv_len d')) with false by lia.
      split; auto. split; [|split; auto].
      * (* some new row *)
        assert (~ incl (dv_items d') (dv_items d)).
        { intros C. pose proof (NoDup_incl_length (wf_NoDup d' W') C). unfold dv_len in *. lia. }
        assert (exists x, In x (dv_items d') /\ ~ In x (dv_items d)) as [x [X1 X2]].
        { destruct (Forall_Exists_dec (fun x => In x (dv_items d)) (fun x => in_dec N.eq_dec x _) (dv_items d')) as [F|F].
          - exfalso. apply H. intros x Hx. rewrite Forall_forall in F. auto.
          - apply Exists_exists in F. destruct F as [x [? ?]]. eauto. }
        exists x. apply E' in X1. unfold dv_has in *. tauto.
      * assert (exists x, x < p /\ ~ dv_has d' x) as [x [X1 X2]].
        { destruct (Forall_Exists_dec (fun x => In x (dv_items d')) (fun x => in_dec N.eq_dec x _) (nrange 0 (N.to_nat p))) as [F|F].
          - exfalso. apply Hnp, A2. intros x Hx. rewrite Forall_forall in F. apply F, nrange_In. lia.
          - apply Exists_exists in F. destruct F as [x [Hx ?]]. exists x. apply nrange_In in Hx. split; [lia|auto]. }
        exists x. rewrite E' in X2. tauto.
Qed.

(* deleting with a literal `true` removes the fragment, `false` keeps it *)
Theorem frag_delete_literals : forall p d, frag_delete p d PTrue = Removed /\ frag_delete p d PFalse = Unchanged.
Proof. auto. Qed.

Theorem extend_deletions_spec : forall p d items lo up, dv_wf d -> hint_ok (length items) lo up ->
  (forall x, dv_has d x -> x < p) -> (forall x, In x items -> x < p) ->
  match extend_deletions p d items lo up with
  | Removed => forall x, x < p -> dv_has d x \/ In x items
  | Updated d' => dv_wf d' /\ (exists x, x < p /\ ~ dv_has d x /\ ~ In x items) /\
                  (forall x, dv_has d' x <-> dv_has d x \/ In x items)
  | _ => False
  end.
Proof.
  intros p d items lo up W Hh Hp Hi. unfold extend_deletions.
  destruct (extend_spec d items lo up W Hh) as [W' E]. set (d' := dv_extend d items lo up) in *.
  assert (Hp' : forall x, dv_has d' x -> x < p) by (intros x Hx; apply E in Hx; destruct Hx; auto).
  destruct (all_rows d' p W' Hp') as [A1 A2]. unfold write_deletions.
  destruct ((N.of_nat (dv_len d') =? p) && dv_contains_range d' 0 p) eqn:Er.
  - apply andb_true_iff in Er. destruct Er as [_ Er]. rewrite contains_range_spec in Er.
    intros x Hx. apply E, Er. lia.
  - assert (Hnp : N.of_nat (dv_len d') <> p).
    { intros C. rewrite C, N.eqb_refl in Er. cbn in Er.
      assert (dv_contains_range d' 0 p = true) by (apply contains_range_spec; intros; apply A2; auto; lia). congruence. }
    replace (p <=? N.of_nat (dv_len d')) with false by lia. split; auto. split; auto.
    assert (exists x, x < p /\ ~ dv_has d' x) as [x [X1 X2]].
    { destruct (Forall_Exists_dec (fun x => In x (dv_items d')) (fun x => in_dec N.eq_dec x _) (nrange 0 (N.to_nat p))) as [F|F].
      - exfalso. apply Hnp, A2. intros x Hx. rewrite Forall_forall in F. apply F, nrange_In. lia.
      - apply Exists_exists in F. destruct F as [x [Hx ?]]. exists x. apply nrange_In in Hx. split; [lia|auto]. }
    exists x. rewrite E in X2. tauto.
Qed.

Example frag_delete_ex : frag_delete 5 (DSet [1]) (PScan [[7 * two32 + 3]; [7 * two32 + 0]]) = Updated (DSet [1; 3; 0])
  /\ frag_delete 3 (DSet [1]) (PScan [[7 * two32 + 2; 7 * two32 + 0]]) = Removed.
Proof. split; vm_compute; reflexivity. Qed.
