From Coq Require Import List Arith NArith Bool Lia ZifyBool ZifyN ZifyNat.
From Verif Require Import Lib RowIdsModel RowIdsSpec EncArrProofs BitmapProofs SegProofs.
Import ListNotations.
Local Open Scope nat_scope.
Local Opaque Nat.div Nat.modulo.

(** * delete *)

(* [dels] lists ids in the order in which they appear in [vals] *)
Lemma drop_matching_spec : forall vals dels, NoDup vals ->
  dels = filter (fun v => memN v dels) vals ->
  drop_matching vals dels = without_ids dels vals.
Proof.
  unfold without_ids.
  induction vals as [|v vs IH]; intros dels Hd Hs; [reflexivity|].
  inversion Hd as [|? ? Hnv Hd']; subst.
  cbn [drop_matching filter] in *. destruct (memN v dels) eqn:Em.
  - destruct dels as [|d ds]; [discriminate|]. injection Hs as -> Hs.
    rewrite N.eqb_refl. cbn [negb].
    assert (E : forall x, In x vs -> memN x (v :: ds) = memN x ds).
    { intros x Hx. simpl. replace (x =? v)%N with false; auto.
      symmetry. apply N.eqb_neq. intros ->. auto. }
    rewrite IH; auto.
    + apply filter_ext_in'. intros x Hx. now rewrite E.
    + rewrite Hs at 1. apply filter_ext_in'. intros x Hx. apply E. auto.
  - cbn [negb]. destruct dels as [|d ds].
    + f_equal. rewrite (IH []); auto.
    + simpl in Em. destruct (v =? d)%N eqn:Evd; [discriminate|].
      rewrite N.eqb_sym, Evd. f_equal. apply IH; auto.
Qed.

Lemma NoDup_filter' : forall {A} (f : A -> bool) l, NoDup l -> NoDup (filter f l).
Proof. intros. now apply NoDup_filter. Qed.

Lemma valid_filter : forall f l, valid_ids l -> valid_ids (filter f l).
Proof.
  intros f l H. unfold valid_ids in *. rewrite Forall_forall in *. intros x Hx.
  apply filter_In in Hx. apply H. tauto.
Qed.

Lemma seg_delete_spec : forall s vals, seg_wf s -> NoDup (seg_iter s) ->
  vals = filter (fun v => memN v vals) (seg_iter s) ->
  exists s', seg_delete s vals = Some s' /\ seg_wf s' /\ seg_iter s' = without_ids vals (seg_iter s).
Proof.
  intros s vals Hw Hd Hv. unfold seg_delete. rewrite drop_matching_spec by auto.
  assert (V : valid_ids (without_ids vals (seg_iter s))) by (apply valid_filter; now apply seg_iter_valid).
  destruct (from_stats_spec (compute_stats (without_ids vals (seg_iter s))) (without_ids vals (seg_iter s)))
    as [s' [E1 [E2 E3]]]; auto.
  - apply compute_stats_ok; auto. now apply NoDup_filter'.
  - exists s'. auto.
Qed.

(* find_ids: the range test never hides a match *)
Lemma seg_range_spec : forall s v, seg_wf s -> In v (seg_iter s) ->
  exists lo hi, seg_range s = Some (Some (lo, hi)) /\ (lo <= v <= hi)%N.
Proof.
  intros s v Hw Hin. destruct s as [a b|a b h|a b bm|arr|arr]; simpl in *.
  - apply nrange_In in Hin. replace (a <? b)%N with true by lia. do 2 eexists. split; [reflexivity|]. lia.
  - apply filter_In in Hin. destruct Hin as [Hin _]. apply nrange_In in Hin.
    do 2 eexists. split; [reflexivity|]. lia.
  - apply filter_In in Hin. destruct Hin as [Hin _]. apply nrange_In in Hin.
    do 2 eexists. split; [reflexivity|]. lia.
  - rewrite ea_first_iter, ea_last_iter. destruct Hw as [_ [Hs [Hne _]]].
    destruct (ea_iter arr) as [|x l] eqn:E; [congruence|]. simpl hd_error.
    do 2 eexists. split; [reflexivity|]. split.
    + destruct Hs as [H1 _]. destruct Hin as [->|Hin]; [lia|]. specialize (H1 _ Hin). lia.
    + assert (E2 : x :: l = removelast (x :: l) ++ [last (x :: l) 0%N]) by (apply app_removelast_last; discriminate).
      rewrite E2 in Hin. rewrite E2 in Hs. apply sinc_app in Hs. destruct Hs as [_ [_ H3]].
      apply in_app_or in Hin. destruct Hin as [Hin|[->|[]]]; [|lia].
      specialize (H3 _ (last (x :: l) 0%N) Hin (or_introl eq_refl)). lia.
  - destruct Hw as [H1 [H2 _]]. destruct (ea_min_spec arr H1 H2) as [m [E1 [_ E3]]].
    rewrite E1, ea_max_iter. destruct (list_maxN (ea_iter arr)) as [m2|] eqn:E4.
    + apply list_maxN_spec in E4. do 2 eexists. split; [reflexivity|]. split; [now apply E3|now apply E4].
    + destruct (ea_iter arr); [congruence|discriminate].
Qed.

Lemma seg_range_total : forall s, seg_wf s -> exists r, seg_range s = Some r.
Proof.
  intros s Hw. destruct s as [a b|a b h|a b bm|arr|arr]; simpl in *; eauto.
  - destruct (a <? b)%N; eauto.
  - rewrite ea_first_iter, ea_last_iter. destruct (ea_iter arr); [tauto|simpl; eauto].
  - destruct Hw as [H1 [H2 _]]. destruct (ea_min_spec arr H1 H2) as [m [E1 _]].
    rewrite E1, ea_max_iter. destruct (ea_iter arr); [congruence|simpl; eauto].
Qed.

Lemma seg_match_spec : forall s v, seg_wf s ->
  seg_match s v = Some (match seg_position s v with Some o => [o] | None => [] end).
Proof.
  intros s v Hw. unfold seg_match. assert (Hp := seg_position_spec s v Hw).
  destruct (seg_range_total s Hw) as [r Er]. rewrite Er.
  destruct (seg_position s v) as [o|] eqn:E.
  - destruct (seg_range_spec s v Hw) as [lo [hi [E1 E2]]]; [now apply first_index_In in Hp|].
    rewrite Er in E1. injection E1 as ->. replace ((lo <=? v)%N && (v <=? hi)%N) with true by lia. reflexivity.
  - destruct r as [[lo hi]|]; auto. now destruct ((lo <=? v)%N && (v <=? hi)%N).
Qed.

Lemma sequence_opt_Some : forall {A B} (f : A -> option B) (g : A -> B) l,
  (forall x, In x l -> f x = Some (g x)) -> sequence_opt (map f l) = Some (map g l).
Proof.
  induction l; simpl; intros H; auto. rewrite H by auto. rewrite IHl by auto. reflexivity.
Qed.

Lemma insert_nat_In : forall x l y, In y (insert_nat x l) <-> y = x \/ In y l.
Proof.
  induction l as [|a l IH]; intros y; simpl; [intuition|].
  destruct (x <=? a); simpl; [intuition|]. rewrite IH. intuition.
Qed.

Lemma sort_nat_In : forall l y, In y (sort_nat l) <-> In y l.
Proof.
  induction l; intros y; simpl; [tauto|]. rewrite insert_nat_In, IHl. intuition.
Qed.

Lemma insert_nat_sinc : forall x l, sincn l -> ~ In x l -> sincn (insert_nat x l).
Proof.
  induction l as [|a l IH]; intros Hs Hn; simpl; [split; auto; intros y []|].
  destruct Hs as [H1 H2]. destruct (x <=? a) eqn:E.
  - simpl. split; [|split; auto]. intros y [<-|Hy].
    + assert (x <> a) by (intros ->; apply Hn; now left). lia.
    + specialize (H1 _ Hy). lia.
  - simpl. split.
    + intros y Hy. apply insert_nat_In in Hy. destruct Hy as [->|Hy]; [lia|auto].
    + apply IH; auto. intros H. apply Hn. now right.
Qed.

Lemma sort_nat_sinc : forall l, NoDup l -> sincn (sort_nat l).
Proof.
  induction l; intros Hd; simpl; auto. inversion Hd; subst.
  apply insert_nat_sinc; auto. now rewrite sort_nat_In.
Qed.

Lemma sincn_ext : forall l1 l2, sincn l1 -> sincn l2 -> (forall x, In x l1 <-> In x l2) -> l1 = l2.
Proof.
  induction l1 as [|a l1 IH]; intros [|b l2] S1 S2 E; auto.
  - exfalso. apply (E b). now left.
  - exfalso. apply (E a). now left.
  - simpl in S1, S2. destruct S1 as [A1 S1], S2 as [A2 S2].
    assert (a = b).
    { destruct (proj1 (E a) (or_introl eq_refl)) as [->|Ha]; auto.
      destruct (proj2 (E b) (or_introl eq_refl)) as [->|Hb]; auto.
      specialize (A1 _ Hb). specialize (A2 _ Ha). lia. }
    subst b. f_equal. apply IH; auto.
    intros x. split; intros Hx.
    + destruct (proj1 (E x) (or_intror Hx)) as [->|]; auto. specialize (A1 _ Hx). lia.
    + destruct (proj2 (E x) (or_intror Hx)) as [->|]; auto. specialize (A2 _ Hx). lia.
Qed.

Lemma sincn_filter : forall f l, sincn l -> sincn (filter f l).
Proof.
  induction l; simpl; auto. intros [H1 H2].
  destruct (f a); simpl; auto. split; auto.
  intros y Hy. apply filter_In in Hy. apply H1; tauto.
Qed.

(* positions of the elements that satisfy f, and the elements there *)
Definition positions_of (f : N -> bool) (l : list N) : list nat :=
  filter (fun i => match nth_error l i with Some v => f v | None => false end) (seq 0 (length l)).

Lemma positions_get : forall f l,
  sequence_opt (map (nth_error l) (positions_of f l)) = Some (filter f l).
Proof.
  intros f l. unfold positions_of.
  assert (G : forall m k, length l = k + m ->
     sequence_opt (map (nth_error l) (filter (fun i => match nth_error l i with Some v => f v | None => false end)
        (seq k m))) = Some (filter f (skipn k l))).
  { induction m; intros k Hk.
    - simpl. rewrite skipn_all2 by lia. reflexivity.
    - cbn [seq filter].
      destruct (nth_error l k) as [v|] eqn:Ev; [|apply nth_error_None in Ev; lia].
      assert (Es : skipn k l = v :: skipn (S k) l).
      { clear - Ev. revert k Ev. induction l; intros [|k] Ev; simpl in *; try discriminate; [congruence|].
        apply IHl. exact Ev. }
      rewrite Es. cbn [filter]. destruct (f v).
      + cbn [map sequence_opt]. rewrite Ev. rewrite IHm by lia. reflexivity.
      + apply IHm. lia. }
  apply (G (length l) 0). reflexivity.
Qed.

Lemma seg_matches_spec : forall s ids, seg_wf s -> NoDup (seg_iter s) -> NoDup ids ->
  seg_matches s ids = Some (positions_of (fun v => memN v ids) (seg_iter s)).
Proof.
  intros s ids Hw Hd Hi. unfold seg_matches.
  rewrite (sequence_opt_Some (seg_match s) (fun v => match seg_position s v with Some o => [o] | None => [] end))
    by (intros; now apply seg_match_spec).
  cbn [omap]. f_equal. apply sincn_ext.
  - apply sort_nat_sinc. clear Hd. induction ids as [|v ids IH]; simpl; [constructor|].
    inversion Hi as [|? ? Hv Hi']; subst. destruct (seg_position s v) as [o|] eqn:Eo; simpl; auto.
    constructor; auto. intros Hin. rewrite in_concat in Hin. destruct Hin as [l [Hl Ho]].
    apply in_map_iff in Hl. destruct Hl as [w [<- Hw']].
    destruct (seg_position s w) as [o'|] eqn:Eo'; [|destruct Ho]. destruct Ho as [->|[]].
    apply seg_position_iff in Eo; auto. apply seg_position_iff in Eo'; auto.
    destruct Eo as [E1 _]. destruct Eo' as [E2 _]. assert (v = w) by congruence. subst. auto.
  - apply sincn_filter, sincn_seq.
  - intros i. rewrite sort_nat_In, in_concat. unfold positions_of. rewrite filter_In, in_seq. split.
    + intros [l [Hl Ho]]. apply in_map_iff in Hl. destruct Hl as [w [<- Hw']].
      destruct (seg_position s w) as [o|] eqn:Eo; [|destruct Ho]. destruct Ho as [->|[]].
      apply seg_position_iff in Eo; auto. destruct Eo as [E1 _]. rewrite E1. split.
      * split; [lia|]. simpl. apply nth_error_Some. congruence.
      * now apply memN_In.
    + intros [_ H]. destruct (nth_error (seg_iter s) i) as [v|] eqn:Ev; [|discriminate].
      apply memN_In in H. exists [i]. split; [|now left]. apply in_map_iff. exists v. split; auto.
      rewrite (proj2 (seg_position_iff s v i Hw)); auto. now apply NoDup_first_index.
Qed.

Lemma seg_delete_ids_spec : forall s ids, seg_wf s -> NoDup (seg_iter s) -> NoDup ids ->
  exists s', seg_delete_ids s ids = Some s' /\ seg_wf s' /\ seg_iter s' = without_ids ids (seg_iter s).
Proof.
  intros s ids Hw Hd Hi. unfold seg_delete_ids. rewrite seg_matches_spec by auto. cbn [obind].
  assert (Hp := positions_get (fun v => memN v ids) (seg_iter s)).
  destruct (positions_of (fun v => memN v ids) (seg_iter s)) as [|p ps] eqn:Ep.
  - exists s. split; auto. split; auto. symmetry. apply filter_all_true. intros x Hx.
    injection Hp as Hp. destruct (memN x ids) eqn:Em; auto.
    assert (Hx' : In x (filter (fun v => memN v ids) (seg_iter s))) by (apply filter_In; auto).
    rewrite <- Hp in Hx'. destruct Hx'.
  - unfold seg_match_ids. rewrite (map_ext _ _ (fun i => seg_get_iter s i Hw)). rewrite Hp. cbn [obind].
    destruct (seg_delete_spec s (filter (fun v => memN v ids) (seg_iter s)) Hw Hd) as [s' [E1 [E2 E3]]].
    + apply filter_ext_in'. intros x Hx. destruct (memN x ids) eqn:Em; symmetry.
      * apply memN_In. apply filter_In. auto.
      * apply memN_false. rewrite filter_In, Em. intuition discriminate.
    + exists s'. split; auto. split; auto. rewrite E3. apply filter_ext_in'. intros x Hx. f_equal.
      destruct (memN x ids) eqn:Em.
      * apply memN_In. apply filter_In. auto.
      * apply memN_false. rewrite filter_In, Em. intuition discriminate.
Qed.

Lemma NoDup_app_l : forall {A} (l1 l2 : list A), NoDup (l1 ++ l2) -> NoDup l1 /\ NoDup l2.
Proof.
  induction l1; simpl; intros l2 H; [split; auto; constructor|].
  inversion H; subst. destruct (IHl1 _ H3). split; auto. constructor; auto.
  intros Hin. apply H2. apply in_or_app. auto.
Qed.

Theorem seq_delete_spec : forall q ids, seq_wf q -> NoDup (seq_iter q) -> NoDup ids ->
  exists q', seq_delete q ids = Some q' /\ seq_wf q' /\ seq_iter q' = without_ids ids (seq_iter q).
Proof.
  induction q as [|s q IH]; intros ids Hw Hd Hi.
  - exists []. repeat split; auto.
  - inversion Hw as [|? ? Hs Hq]; subst. simpl in Hd. apply NoDup_app_l in Hd. destruct Hd as [Hd1 Hd2].
    destruct (seg_delete_ids_spec s ids Hs Hd1 Hi) as [s' [E1 [E2 E3]]].
    destruct (IH ids Hq Hd2 Hi) as [q' [F1 [F2 F3]]].
    exists (s' :: q'). unfold seq_delete in *. cbn [map sequence_opt]. rewrite E1, F1. split; auto.
    split; [constructor; auto|]. simpl. rewrite E3, F3. unfold without_ids. now rewrite filter_app.
Qed.

(** * mask *)

Definition wpos (k : nat) (ps : list nat) (l : list N) : list N :=
  map snd (filter (fun p => negb (memb (fst p) ps)) (combine (seq k (length l)) l)).

Lemma wpos_cons : forall k ps v l,
  wpos k ps (v :: l) = (if memb k ps then [] else [v]) ++ wpos (S k) ps l.
Proof. intros. unfold wpos. simpl. destruct (memb k ps); reflexivity. Qed.

Lemma wpos_app : forall l1 l2 k ps, wpos k ps (l1 ++ l2) = wpos k ps l1 ++ wpos (k + length l1) ps l2.
Proof.
  induction l1; intros; simpl app.
  - unfold wpos at 2. simpl. now rewrite Nat.add_0_r.
  - rewrite !wpos_cons, IHl1, <- app_assoc. simpl length. do 3 f_equal. lia.
Qed.

Lemma wpos_ext : forall l k ps ps', (forall i, k <= i < k + length l -> memb i ps = memb i ps') ->
  wpos k ps l = wpos k ps' l.
Proof.
  induction l; intros k ps ps' H; [reflexivity|]. rewrite !wpos_cons. rewrite (H k) by (simpl; lia).
  f_equal. apply IHl. intros. apply H. simpl. lia.
Qed.

Lemma wpos_shift : forall l k d ps ps', (forall i, k <= i < k + length l -> memb i ps = memb (i + d) ps') ->
  wpos k ps l = wpos (k + d) ps' l.
Proof.
  induction l; intros k d ps ps' H; [reflexivity|]. rewrite !wpos_cons. rewrite (H k) by (simpl; lia).
  f_equal. apply (IHl (S k) d). intros. apply H. simpl. lia.
Qed.

Lemma drop_positions_spec : forall vals i ps, sincn ps -> (forall p, In p ps -> i <= p) ->
  drop_positions i vals ps = wpos i ps vals.
Proof.
  induction vals as [|v vs IH]; intros i ps Hs Hp; [reflexivity|].
  cbn [drop_positions]. rewrite wpos_cons. destruct ps as [|p pt].
  - simpl. f_equal. apply IH; simpl; auto. tauto.
  - destruct Hs as [H1 H2]. destruct (p =? i) eqn:E.
    + apply Nat.eqb_eq in E. subst. simpl memb. rewrite Nat.eqb_refl. simpl.
      rewrite IH; auto.
      apply wpos_ext. intros j Hj. simpl. replace (j =? i) with false by lia. reflexivity.
    + replace (memb i (p :: pt)) with false.
      * simpl. f_equal. apply IH; [split; auto|]. intros q [<-|Hq].
        -- specialize (Hp p (or_introl eq_refl)). lia.
        -- specialize (H1 _ Hq). specialize (Hp p (or_introl eq_refl)). lia.
      * symmetry. apply memb_false. intros [H|H]; [lia|]. specialize (H1 _ H).
        specialize (Hp p (or_introl eq_refl)). lia.
Qed.

Lemma sincn_nth_ge : forall ps i, sincn ps -> i < length ps -> i <= nth i ps 0.
Proof.
  intros ps i Hs. 
  assert (G : forall ps i k, sincn ps -> (forall p, In p ps -> k <= p) -> i < length ps -> k + i <= nth i ps 0).
  { clear. induction ps as [|p ps IH]; simpl; intros i k Hs Hk Hi; [lia|]. destruct Hs as [H1 H2].
    destruct i; [specialize (Hk p (or_introl eq_refl)); lia|].
    specialize (IH i (S k) H2). assert (S k + i <= nth i ps 0); [|lia]. apply IH; [|lia].
    intros q Hq. specialize (H1 _ Hq). specialize (Hk p (or_introl eq_refl)). lia. }
  intros Hi. apply (G ps i 0); auto. intros; lia.
Qed.

Lemma sincn_nth_mono : forall ps i j, sincn ps -> i < j -> j < length ps -> nth i ps 0 < nth j ps 0.
Proof.
  induction ps as [|p ps IH]; simpl; intros i j Hs Hij Hj; [lia|]. destruct Hs as [H1 H2].
  destruct j; [lia|]. destruct i.
  - apply H1. apply nth_In. lia.
  - apply IH; auto; lia.
Qed.

Lemma find_seq_spec : forall f n k i, find f (seq k n) = Some i ->
  k <= i < k + n /\ f i = true /\ forall j, k <= j < i -> f j = false.
Proof.
  induction n; simpl; intros k i H; [discriminate|].
  destruct (f k) eqn:E.
  - injection H as <-. repeat split; auto; try lia.
  - apply IHn in H. destruct H as [A [B C]]. repeat split; auto; try lia.
    intros j Hj. destruct (Nat.eq_dec j k) as [->|]; auto. apply C. lia.
Qed.

Lemma find_seq_exists : forall f n k i, k <= i < k + n -> f i = true -> exists j, find f (seq k n) = Some j.
Proof.
  induction n; simpl; intros k i H Hf; [lia|].
  destruct (f k) eqn:E; eauto. apply (IHn (S k) i); auto.
  assert (i <> k) by (intros ->; congruence). lia.
Qed.

(* cycle_nth within the list *)
Lemma cycle_nth_lt : forall ps i, i < length ps -> cycle_nth ps i = nth i ps 0.
Proof. intros. unfold cycle_nth. now rewrite Nat.mod_small. Qed.

Lemma first_unmasked_spec : forall len ps, sincn ps -> ps <> [] -> length ps < len ->
  exists i, first_unmasked len ps = Some i /\ i < len /\ ~ In i ps /\ forall j, j < i -> In j ps.
Proof.
  intros len ps Hs Hne Hl. unfold first_unmasked.
  assert (Hn : 0 < length ps) by (destruct ps; [congruence|simpl; lia]).
  assert (Hex : exists i, i <= length ps /\ negb (cycle_nth ps i =? i) = true).
  { destruct (nth 0 ps 0 =? 0) eqn:E.
    - exists (length ps). split; auto. unfold cycle_nth. rewrite Nat.mod_same by lia. lia.
    - exists 0. split; [lia|]. rewrite cycle_nth_lt by lia. now rewrite E. }
  destruct Hex as [x [Hx1 Hx2]].
  destruct (find_seq_exists (fun i => negb (cycle_nth ps i =? i)) len 0 x ltac:(lia) Hx2) as [i Ei].
  exists i. split; auto. assert (Hmin := find_seq_spec _ _ _ _ Ei). destruct Hmin as [A [B C]].
  assert (Hix : i <= length ps).
  { destruct (Nat.le_gt_cases i x); [lia|]. rewrite C in Hx2 by lia. discriminate. }
  assert (HC : forall j, j < i -> nth j ps 0 = j).
  { intros j Hj. specialize (C j ltac:(lia)). rewrite cycle_nth_lt in C by lia. lia. }
  split; [lia|]. split.
  - intros Hin. apply In_nth with (d := 0) in Hin. destruct Hin as [k [Hk1 Hk2]].
    destruct (Nat.lt_trichotomy k i) as [H|[H|H]].
    + rewrite HC in Hk2; lia.
    + subst k. rewrite cycle_nth_lt in B by lia. lia.
    + assert (Hge := sincn_nth_ge ps k Hs Hk1). lia.
  - intros j Hj. rewrite <- (HC j Hj). apply nth_In. lia.
Qed.

Lemma last_unmasked_spec : forall len ps, sincn ps -> ps <> [] -> length ps < len ->
  (forall p, In p ps -> p < len) ->
  exists i, last_unmasked len ps = Some i /\ i < len /\ ~ In i ps /\ forall j, i < j < len -> In j ps.
Proof.
  intros len ps Hs Hne Hl Hb. unfold last_unmasked.
  assert (Hn : 0 < length ps) by (destruct ps; [congruence|simpl; lia]).
  (* rev ps at index j, upper bound *)
  assert (Hrev : forall j, j < length ps -> nth j (rev ps) 0 = nth (length ps - 1 - j) ps 0).
  { intros j Hj. rewrite rev_nth by auto. f_equal. lia. }
  assert (Hub : forall j, j < length ps -> nth j (rev ps) 0 + j <= len - 1).
  { assert (G : forall d, d < length ps -> nth (length ps - 1 - d) ps 0 + d <= len - 1).
    { induction d; intros Hd.
      - assert (H := Hb (nth (length ps - 1 - 0) ps 0) ltac:(apply nth_In; lia)). lia.
      - assert (H := sincn_nth_mono ps (length ps - 1 - S d) (length ps - 1 - d) Hs ltac:(lia) ltac:(lia)).
        specialize (IHd ltac:(lia)). lia. }
    intros j Hj. rewrite Hrev by auto. now apply G. }
  assert (Hl' : length (rev ps) = length ps) by apply rev_length.
  set (f := fun j => negb (cycle_nth (rev ps) j =? len - 1 - j)).
  assert (Hex : exists x, x <= length ps /\ f x = true).
  { destruct (nth 0 (rev ps) 0 =? len - 1) eqn:E.
    - exists (length ps). split; auto. unfold f, cycle_nth. rewrite Hl', Nat.mod_same by lia. lia.
    - exists 0. split; [lia|]. unfold f. rewrite cycle_nth_lt by lia. rewrite Nat.sub_0_r, E. reflexivity. }
  destruct Hex as [x [Hx1 Hx2]].
  destruct (find_seq_exists f len 0 x ltac:(lia) Hx2) as [i Ei]. rewrite Ei.
  cbn [omap]. exists (len - 1 - i). split; auto.
  assert (Hmin := find_seq_spec _ _ _ _ Ei). destruct Hmin as [A [B C]].
  assert (Hix : i <= length ps).
  { destruct (Nat.le_gt_cases i x); [lia|]. rewrite C in Hx2 by lia. discriminate. }
  assert (HC : forall j, j < i -> nth j (rev ps) 0 = len - 1 - j).
  { intros j Hj. specialize (C j ltac:(lia)). unfold f in C. rewrite cycle_nth_lt in C by lia. lia. }
  split; [lia|]. split.
  - intros Hin. apply In_rev in Hin. apply In_nth with (d := 0) in Hin.
    destruct Hin as [k [Hk1 Hk2]]. rewrite Hl' in Hk1.
    destruct (Nat.lt_trichotomy k i) as [H|[H|H]].
    + rewrite HC in Hk2; lia.
    + subst k. unfold f in B. rewrite cycle_nth_lt in B by lia. lia.
    + specialize (Hub k Hk1). lia.
  - intros j Hj. apply In_rev. replace j with (nth (len - 1 - j) (rev ps) 0) by (rewrite HC; lia).
    apply nth_In. lia.
Qed.

Lemma wpos_In : forall l k ps v, In v (wpos k ps l) <->
  exists i, nth_error l i = Some v /\ ~ In (k + i) ps.
Proof.
  induction l as [|a l IH]; intros k ps v.
  - unfold wpos. simpl. split; [tauto|]. intros [i [H _]]. now rewrite nth_error_nil' in H.
  - rewrite wpos_cons, in_app_iff, IH. split.
    + intros [H|[i [H1 H2]]].
      * destruct (memb k ps) eqn:E; [destruct H|]. destruct H as [->|[]]. exists 0. split; auto.
        rewrite Nat.add_0_r. now apply memb_false.
      * exists (S i). split; auto. replace (k + S i) with (S k + i) by lia. auto.
    + intros [[|i] [H1 H2]].
      * simpl in H1. injection H1 as ->. rewrite Nat.add_0_r in H2. apply memb_false in H2. rewrite H2. left. now left.
      * right. exists i. split; auto. replace (S k + i) with (k + S i) by lia. auto.
Qed.

Lemma wpos_length : forall l k ps, sincn ps -> (forall p, In p ps -> k <= p < k + length l) ->
  length (wpos k ps l) = length l - length ps /\ length ps <= length l.
Proof.
  induction l as [|a l IH]; intros k ps Hs Hp.
  - destruct ps as [|p ps]; [split; reflexivity|]. specialize (Hp p (or_introl eq_refl)). simpl in Hp. lia.
  - rewrite wpos_cons. destruct ps as [|p ps].
    + destruct (IH (S k) [] I ltac:(simpl; tauto)) as [E _]. simpl in *. lia.
    + destruct Hs as [H1 H2].
      assert (Hpk := Hp p (or_introl eq_refl)). cbn [length] in *.
      destruct (Nat.eq_dec p k) as [->|Hne].
      * simpl memb. rewrite Nat.eqb_refl. simpl app.
        rewrite (wpos_ext l (S k) (k :: ps) ps).
        2:{ intros i Hi. simpl. replace (i =? k) with false by lia. reflexivity. }
        destruct (IH (S k) ps H2) as [E1 E2]; [|lia].
        intros q Hq. assert (A1 := H1 _ Hq). assert (A2 := Hp _ (or_intror Hq)). lia.
      * assert (Hk : memb k (p :: ps) = false).
        { apply memb_false. intros [H|H]; [lia|]. specialize (H1 _ H). lia. }
        rewrite Hk. destruct (IH (S k) (p :: ps)) as [E1 E2].
        -- split; auto.
        -- intros q [<-|Hq]; [lia|]. assert (A1 := H1 _ Hq). assert (A2 := Hp _ (or_intror Hq)). lia.
        -- cbn [length app] in *. lia.
Qed.

Lemma sinc_nth_mono : forall l i j x y, sinc l -> i < j -> nth_error l i = Some x -> nth_error l j = Some y -> (x < y)%N.
Proof.
  induction l as [|a l IH]; intros i j x y Hs Hij Hi Hj; [destruct j; discriminate|]. destruct Hs as [H1 H2].
  destruct j; [lia|]. destruct i.
  - injection Hi as ->. apply H1. simpl in Hj; now apply nth_error_In in Hj.
  - apply (IH i j); auto. lia.
Qed.

Lemma sinc_wpos : forall l k ps, sinc l -> sinc (wpos k ps l).
Proof.
  induction l as [|a l IH]; intros k ps Hs; [exact I|]. rewrite wpos_cons. destruct Hs as [H1 H2].
  destruct (memb k ps); simpl; auto. split; auto. intros y Hy. apply wpos_In in Hy.
  destruct Hy as [i [Hy _]]. apply H1. now apply nth_error_In in Hy.
Qed.

Lemma seg_mask_spec : forall s ps, seg_wf s -> sincn ps -> (forall p, In p ps -> p < length (seg_iter s)) ->
  exists s', seg_mask s ps = Some s' /\ seg_wf s' /\ seg_iter s' = wpos 0 ps (seg_iter s).
Proof.
  intros s ps Hw Hs Hp. unfold seg_mask. rewrite (seg_len_iter s Hw). set (l := seg_iter s) in *.
  destruct (wpos_length l 0 ps Hs) as [HL1 HL2]; [intros p Hin; specialize (Hp _ Hin); lia|].
  destruct ps as [|p0 pt] eqn:Eps.
  { exists s. repeat split; auto. unfold wpos. simpl. rewrite filter_all_true by auto.
    clear. fold l. generalize 0. induction l; simpl; intros; auto. f_equal. auto. }
  rewrite <- Eps in *. assert (Hne : ps <> []) by (subst; discriminate).
  destruct (length ps =? length l) eqn:E1.
  { eexists. split; [reflexivity|]. split; [cbn [seg_wf]; unfold two64; lia|].
    simpl. destruct (wpos 0 ps l) eqn:Ew; auto. simpl in HL1. lia. }
  replace (length l <? length ps) with false by lia.
  destruct (first_unmasked_spec (length l) ps Hs Hne ltac:(lia)) as [i0 [F1 [F2 [F3 F4]]]].
  destruct (last_unmasked_spec (length l) ps Hs Hne ltac:(lia) Hp) as [i1 [G1 [G2 [G3 G4]]]].
  rewrite F1, G1. cbn [obind]. rewrite !seg_get_iter by auto. fold l.
  destruct (nth_error l i0) as [mn|] eqn:Emn; [|apply nth_error_None in Emn; lia].
  destruct (nth_error l i1) as [mx|] eqn:Emx; [|apply nth_error_None in Emx; lia].
  cbn [obind].
  rewrite drop_positions_spec by (auto; intros; lia).
  assert (Hv : valid_ids (wpos 0 ps l)).
  { apply Forall_forall. intros x Hx. apply wpos_In in Hx. destruct Hx as [i [Hx _]]. apply nth_error_In in Hx.
    assert (V := seg_iter_valid s Hw). unfold valid_ids in V. rewrite Forall_forall in V. auto. }
  assert (Hcnt : N.of_nat (length l - length ps) = N.of_nat (length (wpos 0 ps l))) by lia.
  assert (Hnew : wpos 0 ps l <> []) by (apply nonempty_length; lia).
  set (sorted := match s with Arr _ => false | _ => true end).
  destruct sorted eqn:Esort.
  - destruct (from_stats_spec {| st_min := mn; st_max := mx; st_count := N.of_nat (length l - length ps); st_sorted := true |}
                (wpos 0 ps l) Hv) as [s' [A1 [A2 A3]]].
    + assert (Hsi : sinc l).
      { apply seg_iter_sinc; auto. intros a ->. discriminate. }
      unfold stats_ok. cbn [st_count st_sorted st_min st_max]. split; auto. split; [intros _; now apply sinc_wpos|].
      split; [discriminate|]. intros _. split; [|split].
      * apply wpos_In. exists i0. split; auto.
      * apply wpos_In. exists i1. split; auto.
      * intros y Hy. apply wpos_In in Hy. destruct Hy as [i [Hi1 Hi2]]. simpl in Hi2.
        assert (Hil : i < length l) by (apply nth_error_Some; congruence).
        assert (i0 <= i) by (destruct (Nat.le_gt_cases i0 i); auto; exfalso; apply Hi2, F4; auto).
        assert (i <= i1) by (destruct (Nat.le_gt_cases i i1); auto; exfalso; apply Hi2, G4; lia).
        split.
        -- destruct (Nat.eq_dec i0 i) as [->|]; [replace y with mn by congruence; lia|].
           assert (mn < y)%N by (apply (sinc_nth_mono l i0 i); auto; lia). lia.
        -- destruct (Nat.eq_dec i1 i) as [->|]; [replace y with mx by congruence; lia|].
           assert (y < mx)%N by (apply (sinc_nth_mono l i i1); auto; lia). lia.
    + exists s'. auto.
  - assert (Hnil := Hnew). eexists. split; [reflexivity|]. cbn [seg_wf seg_iter]. rewrite ea_from_iter.
    repeat split; auto. apply ea_from_wf. eapply Forall_impl; [|exact Hv].
    unfold u64_max, two64. simpl. intros; lia.
Qed.

Lemma split_below_spec : forall ps cutoff offset, sincn ps -> (forall p, In p ps -> offset <= p) ->
  exists local rest, split_below cutoff offset ps = Some (local, rest) /\
    local = map (fun p => p - offset) (filter (fun p => p <? cutoff) ps) /\
    rest = filter (fun p => negb (p <? cutoff)) ps.
Proof.
  induction ps as [|p ps IH]; intros cutoff offset Hs Hp; [simpl; eauto|].
  cbn [split_below]. destruct Hs as [H1 H2]. destruct (cutoff <=? p) eqn:E.
  - do 2 eexists. split; [reflexivity|].
    rewrite filter_all_false, filter_all_true; auto.
    + intros x [<-|Hx]; [lia|]. specialize (H1 _ Hx). lia.
    + intros x [<-|Hx]; [lia|]. specialize (H1 _ Hx). lia.
  - assert (Hpo := Hp p (or_introl eq_refl)). replace (p <? offset) with false by lia.
    destruct (IH cutoff offset H2) as [local [rest [E1 [E2 E3]]]]; [intros; apply Hp; now right|].
    rewrite E1. cbn [omap]. do 2 eexists. split; [reflexivity|]. cbn [filter].
    replace (p <? cutoff) with true by lia. cbn [negb map]. subst. split; reflexivity.
Qed.

Lemma sincn_map_sub : forall d l, sincn l -> (forall p, In p l -> d <= p) -> sincn (map (fun p => p - d) l).
Proof.
  induction l; simpl; auto. intros [H1 H2] Hd. split.
  - intros y Hy. apply in_map_iff in Hy. destruct Hy as [x [<- Hx]].
    specialize (H1 _ Hx). assert (A := Hd _ (or_introl eq_refl)). lia.
  - apply IHl; auto.
Qed.

Lemma mask_loop_spec : forall q k ps, seq_wf q -> sincn ps ->
  (forall p, In p ps -> k <= p < k + length (seq_iter q)) ->
  exists q', mask_loop q k ps = Some q' /\ seq_wf q' /\ seq_iter q' = wpos k ps (seq_iter q).
Proof.
  induction q as [|s q IH]; intros k ps Hw Hs Hp.
  - exists []. repeat split; auto.
  - inversion Hw as [|? ? Hws Hwq]; subst. cbn [mask_loop]. rewrite (seg_len_iter s Hws).
    set (n := length (seg_iter s)) in *. cbn [seq_iter flat_map] in Hp. rewrite app_length in Hp.
    fold n in Hp. fold (seq_iter q) in Hp.
    destruct (split_below_spec ps (k + n) k Hs) as [local [rest [E1 [E2 E3]]]]; [intros p Hin; now apply Hp|].
    rewrite E1. cbn [obind].
    assert (Hlocal : exists s', match local with [] => Some s | _ => seg_mask s local end = Some s' /\
               seg_wf s' /\ seg_iter s' = wpos 0 local (seg_iter s)).
    { destruct (seg_mask_spec s local Hws) as [s' [A1 [A2 A3]]].
      - subst local. apply sincn_map_sub; [now apply sincn_filter|]. intros p Hin. apply filter_In in Hin.
        apply Hp. tauto.
      - subst local. intros p Hin. apply in_map_iff in Hin. destruct Hin as [x [<- Hx]].
        apply filter_In in Hx. destruct Hx as [Hx1 Hx2]. specialize (Hp _ Hx1). fold n. lia.
      - exists s'. destruct local; auto. }
    destruct Hlocal as [s' [A1 [A2 A3]]]. rewrite A1. cbn [obind].
    destruct (IH (k + n) rest Hwq) as [q' [B1 [B2 B3]]].
    { subst rest. now apply sincn_filter. }
    { subst rest. intros p Hin. apply filter_In in Hin. destruct Hin as [Hin1 Hin2]. specialize (Hp _ Hin1). lia. }
    rewrite B1. cbn [omap]. exists (s' :: q'). split; auto. split; [constructor; auto|].
    cbn [seq_iter flat_map]. fold (seq_iter q') (seq_iter q). rewrite wpos_app. fold n. rewrite A3, B3. f_equal.
    + replace k with (0 + k) at 1 by lia. apply wpos_shift. intros i Hi.
      subst local. destruct (memb (i + k) ps) eqn:Em.
      * apply memb_In. apply memb_In in Em. apply in_map_iff. exists (i + k). split; [lia|].
        apply filter_In. split; auto. fold n in Hi. lia.
      * apply memb_false. apply memb_false in Em. intros Hin. apply Em. apply in_map_iff in Hin.
        destruct Hin as [x [<- Hx]]. apply filter_In in Hx. destruct Hx as [Hx1 Hx2].
        specialize (Hp _ Hx1). replace (x - k + k) with x by lia. auto.
    + apply wpos_ext. intros i Hi. subst rest. destruct (memb i ps) eqn:Em.
      * apply memb_In. apply memb_In in Em. apply filter_In. split; auto. lia.
      * apply memb_false. apply memb_false in Em. rewrite filter_In. tauto.
Qed.

Lemma seq_retain_iter : forall q, seq_wf q ->
  seq_iter (filter (fun s => negb (seg_len s =? 0)) q) = seq_iter q.
Proof.
  induction q as [|s q IH]; intros Hw; auto. inversion Hw; subst. cbn [filter].
  rewrite (seg_len_iter s) by auto. destruct (length (seg_iter s) =? 0) eqn:E; simpl.
  - destruct (seg_iter s); [apply IH; auto|simpl in E; lia].
  - f_equal. now apply IH.
Qed.

Theorem seq_mask_spec : forall q ps, seq_wf q -> sincn ps ->
  (forall p, In p ps -> p < length (seq_iter q)) ->
  exists q', seq_mask q ps = Some q' /\ seq_wf q' /\ seq_iter q' = without_positions ps (seq_iter q).
Proof.
  intros q ps Hw Hs Hp. unfold seq_mask.
  destruct (mask_loop_spec q 0 ps Hw Hs) as [q' [E1 [E2 E3]]]; [intros p Hin; specialize (Hp _ Hin); lia|].
  rewrite E1. cbn [omap]. eexists. split; [reflexivity|]. split.
  - unfold seq_wf in *. rewrite Forall_forall in *. intros s Hin. apply filter_In in Hin. apply E2. tauto.
  - rewrite seq_retain_iter by auto. exact E3.
Qed.

(** * segment slice *)

Definition hole_free (s : segment) : Prop :=
  match s with Holes _ _ _ => False | BMap _ _ _ => False | _ => True end.

Lemma sinc_firstn_skipn : forall l o n, sinc l -> sinc (firstn n (skipn o l)).
Proof.
  intros l o n H. rewrite <- (firstn_skipn o l) in H. apply sinc_app in H. destruct H as [_ [H _]].
  rewrite <- (firstn_skipn n (skipn o l)) in H. apply sinc_app in H. tauto.
Qed.

Theorem seg_slice_spec : forall s off len, seg_wf s -> hole_free s -> off + len <= length (seg_iter s) ->
  exists s', seg_slice s off len = Some s' /\ (0 < len -> seg_wf s') /\
             seg_iter s' = firstn len (skipn off (seg_iter s)).
Proof.
  intros s off len Hw Hh Hl. destruct s as [a b|a b h|a b bm|arr|arr]; try destruct Hh.
  - simpl in *. unfold range_list in *. rewrite nrange_length in Hl. eexists. split; [reflexivity|].
    split; [intros _; cbn [seg_wf]; lia|]. simpl. unfold range_list. rewrite nrange_skipn, nrange_firstn.
    f_equal. lia.
  - simpl in *. destruct Hw as [H1 [H2 [H3 H4]]]. destruct (ea_slice_spec arr off len H1 Hl) as [b [E1 [E2 E3]]].
    rewrite E1. simpl. eexists. split; [reflexivity|]. simpl. rewrite E3. split; auto.
    intros Hlen. split; auto. split; [now apply sinc_firstn_skipn|]. split.
    + apply nonempty_length. rewrite firstn_length, skipn_length. lia.
    + now apply Forall_firstn_skipn.
  - simpl in *. destruct Hw as [H1 [H2 H3]]. destruct (ea_slice_spec arr off len H1 Hl) as [b [E1 [E2 E3]]].
    rewrite E1. simpl. eexists. split; [reflexivity|]. simpl. rewrite E3. split; auto.
    intros Hlen. split; auto. split.
    + apply nonempty_length. rewrite firstn_length, skipn_length. lia.
    + now apply Forall_firstn_skipn.
Qed.

(** * sequences as lists *)

Lemma range_list_app : forall a b c, (a <= b <= c)%N -> range_list a b ++ range_list b c = range_list a c.
Proof.
  intros. unfold range_list. replace (N.to_nat (c - a)) with (N.to_nat (b - a) + N.to_nat (c - b)) by lia.
  rewrite nrange_app. f_equal. f_equal. lia.
Qed.

Theorem seq_extend_spec : forall q1 q2, seq_wf q1 -> seq_wf q2 ->
  seq_wf (seq_extend q1 q2) /\ seq_iter (seq_extend q1 q2) = seq_iter q1 ++ seq_iter q2.
Proof.
  intros q1 q2 H1 H2.
  assert (D : seq_wf (q1 ++ q2) /\ seq_iter (q1 ++ q2) = seq_iter q1 ++ seq_iter q2).
  { split; [now apply Forall_app|]. unfold seq_iter. apply flat_map_app. }
  unfold seq_extend. destruct (rev q1) as [|[a1 b1| | | |] rq] eqn:E; auto.
  destruct q2 as [|[a2 b2| | | |] ot]; auto.
  destruct (b1 =? a2)%N eqn:Eb; auto. apply N.eqb_eq in Eb. subst a2. clear D.
  assert (Eq : q1 = rev rq ++ [Range a1 b1]) by (rewrite <- (rev_involutive q1), E; reflexivity).
  subst q1. clear E. unfold seq_wf in *. rewrite Forall_app in H1. destruct H1 as [H1a H1b].
  inversion H1b as [|? ? H1c _]; subst. inversion H2 as [|? ? H2a H2b]; subst. simpl in H1c, H2a. split.
  - apply Forall_app. split; auto. constructor; auto. simpl. lia.
  - unfold seq_iter. rewrite !flat_map_app. cbn [flat_map seg_iter]. rewrite app_nil_r.
    rewrite <- (range_list_app a1 b1 b2) by lia. now rewrite !app_assoc.
Qed.

Lemma seq_len_iter : forall q, seq_wf q -> seq_len q = length (seq_iter q).
Proof.
  induction q; intros H; auto. inversion H; subst. cbn. rewrite app_length. unfold seq_len in IHq.
  fold (seq_iter q). rewrite <- IHq by auto. f_equal. now apply seg_len_iter.
Qed.

Lemma seq_get_from_spec : forall q k i, seq_wf q -> k <= i -> seq_get_from q k i = nth_error (seq_iter q) (i - k).
Proof.
  induction q as [|s q IH]; intros k i Hw Hk.
  - simpl. now rewrite nth_error_nil'.
  - inversion Hw as [|? ? Hs Hq]; subst. cbn [seq_get_from seq_iter flat_map]. fold (seq_iter q).
    rewrite (seg_len_iter s Hs). destruct (i <? k + length (seg_iter s)) eqn:E.
    + rewrite nth_error_app1 by lia. now apply seg_get_iter.
    + rewrite nth_error_app2 by lia. rewrite IH by (auto; lia). f_equal. lia.
Qed.

Theorem seq_get_spec : forall q i, seq_wf q -> seq_get q i = nth_error (seq_iter q) i.
Proof. intros. unfold seq_get. rewrite seq_get_from_spec by (auto; lia). now rewrite Nat.sub_0_r. Qed.

Lemma skip_segments_spec : forall q off, seq_wf q ->
  let '(rest, o) := skip_segments q off in
  seq_wf rest /\ skipn off (seq_iter q) = skipn o (seq_iter rest) /\
  (match rest with [] => True | s :: _ => o < length (seg_iter s) end) /\
  (off <= length (seq_iter q) -> o <= length (seq_iter rest) /\ length (seq_iter q) - off = length (seq_iter rest) - o).
Proof.
  induction q as [|s q IH]; intros off Hw.
  - simpl. repeat split; auto; lia.
  - inversion Hw as [|? ? Hs Hq]; subst. cbn [skip_segments]. rewrite (seg_len_iter s Hs).
    destruct (off <? length (seg_iter s)) eqn:E.
    + split; [auto|]. split; [reflexivity|]. split; [lia|]. intros; lia.
    + specialize (IH (off - length (seg_iter s)) Hq). destruct (skip_segments q _) as [rest o].
      destruct IH as [A [B [C D]]]. cbn [seq_iter flat_map]. fold (seq_iter q). split; auto. split.
      * rewrite skipn_app, B. rewrite skipn_all2 by lia. reflexivity.
      * split; auto. rewrite app_length. intros H. destruct D as [D1 D2]; [lia|]. split; lia.
Qed.

(* the segments up to the one in which the slice ends *)
Lemma take_segments_spec : forall q last, seq_wf q -> 0 < last <= length (seq_iter q) ->
  exists ss l s, take_segments q last = Some (ss ++ [s], l) /\
    firstn last (seq_iter q) = seq_iter ss ++ firstn l (seg_iter s) /\
    (match ss with [] => l = last | _ => True end) /\
    (exists rest, q = ss ++ [s] ++ rest) /\ l <= length (seg_iter s).
Proof.
  induction q as [|s q IH]; intros last Hw Hl.
  - simpl in Hl. lia.
  - inversion Hw as [|? ? Hs Hq]; subst. cbn [take_segments]. rewrite (seg_len_iter s Hs).
    cbn [seq_iter flat_map] in *. fold (seq_iter q) in *. rewrite app_length in Hl.
    destruct (last <=? length (seg_iter s)) eqn:E.
    + exists [], last, s. split; auto. rewrite firstn_app.
      replace (last - length (seg_iter s)) with 0 by lia. simpl. rewrite app_nil_r.
      repeat split; auto; [exists q; auto|lia].
    + destruct (IH (last - length (seg_iter s)) Hq) as [ss [l [s' [E1 [E2 [E3 [[rest Er] E4]]]]]]]; [lia|].
      rewrite E1. cbn [omap]. exists (s :: ss), l, s'. split; auto.
      rewrite firstn_app, E2. rewrite firstn_all2 by lia. cbn [flat_map seq_iter].
      fold (seq_iter ss). rewrite app_assoc. repeat split; auto. exists rest. now rewrite Er.
Qed.

Lemma slice_iter_two : forall s1 mid s2 st l,
  slice_iter {| sl_segs := s1 :: mid ++ [s2]; sl_start := st; sl_last := l |} =
  skipn st (seg_iter s1) ++ seq_iter mid ++ firstn l (seg_iter s2).
Proof.
  intros. unfold slice_iter. cbn [sl_segs sl_start sl_last].
  cbn [length]. rewrite app_length. cbn [length].
  set (n := S (length mid + 1)). change (seq 0 n) with (0 :: seq 1 (length mid + 1)).
  cbn [combine flat_map].
  replace ((0 =? 0) && (n =? 1)) with false by (unfold n; lia).
  replace (0 =? 0) with true by reflexivity. f_equal.
  assert (G : forall mid k, k <> 0 -> k + length mid = n - 1 ->
     flat_map (fun '(i, s) =>
      if (i =? 0) && (n =? 1) then firstn (l - st) (skipn st (seg_iter s))
      else if i =? 0 then skipn st (seg_iter s)
      else if i =? n - 1 then firstn l (seg_iter s)
      else seg_iter s) (combine (seq k (length mid + 1)) (mid ++ [s2])) = seq_iter mid ++ firstn l (seg_iter s2)).
  { clearbody n. clear mid.
    induction mid as [|m mid IH]; intros k Hk Hn.
    - simpl in *. replace (k =? 0) with false by lia. simpl. rewrite Nat.add_0_r in Hn. subst k.
      rewrite Nat.eqb_refl. now rewrite app_nil_r.
    - cbn [length plus app seq combine flat_map]. replace (k =? 0) with false by lia. cbn [andb].
      replace (k =? n - 1) with false by (cbn [length] in Hn; lia). rewrite IH by (simpl length in *; lia).
      cbn [seq_iter flat_map]. now rewrite <- app_assoc. }
  apply G; [lia|]. unfold n. lia.
Qed.

Theorem seq_slice_spec : forall q off len, seq_wf q -> off + len <= length (seq_iter q) ->
  exists sl, seq_slice q off len = Some sl /\ slice_iter sl = firstn len (skipn off (seq_iter q)).
Proof.
  intros q off len Hw Hl. unfold seq_slice. destruct (len =? 0) eqn:E0.
  - eexists. split; [reflexivity|]. apply Nat.eqb_eq in E0. subst. reflexivity.
  - assert (Hk := skip_segments_spec q off Hw). destruct (skip_segments q off) as [rest o].
    destruct Hk as [A [B [C D]]]. destruct D as [D1 D2]; [lia|].
    destruct (take_segments_spec rest (o + len) A ltac:(lia)) as [ss [l [s [E1 [E2 [E3 [[r Er] E4]]]]]]].
    rewrite E1. cbn [omap]. eexists. split; [reflexivity|]. rewrite B.
    assert (F : firstn len (skipn o (seq_iter rest)) = skipn o (firstn (o + len) (seq_iter rest))).
    { rewrite skipn_firstn_comm. f_equal. lia. }
    rewrite F, E2. destruct ss as [|s1 mid].
    + subst l. simpl app. unfold slice_iter. cbn. rewrite app_nil_r.
      rewrite skipn_firstn_comm. reflexivity.
    + simpl app. rewrite slice_iter_two. subst rest. simpl in C.
      cbn [seq_iter flat_map]. rewrite <- app_assoc. rewrite skipn_app.
      replace (o - length (seg_iter s1)) with 0 by lia. reflexivity.
Qed.
