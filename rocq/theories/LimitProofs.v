(* C90: limit, offset and order of a scan. *)
From Coq Require Import List Arith NArith ZArith Bool Lia Permutation Sorted.
From Verif Require Import Lib AMap RowIdsModel SerdeModel ReadParamsModel TreeMapModel DeletionModel StreamModel StreamProofs FragReadModel FragReadProofs LimitModel.
Import ListNotations.
Local Open Scope nat_scope.

(* ---- what should be returned ---- *)
(* the surviving rows of the fragments, in order, with their stored values *)
Definition table_rows (frags : list rfrag) (q : query) : list srow := flat_map (fun g => map (want g (q_proj q) (q_conf q)) (live_offsets g)) frags.
Definition passing (frags : list rfrag) (q : query) : list srow :=
  filter (fun r => match q_filter q with Some p => p r | None => true end) (table_rows frags q).
(* the page of a list that a limit and an offset select *)
Definition page (limit offset : option Z) (l : list srow) : list srow :=
  let l' := skipn (match offset with Some o => Z.to_nat o | None => 0 end) l in
  match limit with Some n => firstn (Z.to_nat n) l' | None => l' end.
(* the answers of a query: rows in an order the query allows, then the page *)
Definition answers (frags : list rfrag) (q : query) (out : list srow) : Prop :=
  exists l, match q_order q with None => l = passing frags q | Some le => Permutation l (passing frags q) /\ StronglySorted (fun a b => le a b = true) l end /\
    out = page (q_limit q) (q_offset q) l.
(* SortExec sorts by the given order *)
Definition sorts (sort : (srow -> srow -> bool) -> list srow -> list srow) (le : srow -> srow -> bool) : Prop :=
  forall l, Permutation (sort le l) l /\ StronglySorted (fun a b => le a b = true) (sort le l).

(* ---- reading the fragments ---- *)
Lemma collect_app : forall {A} (l : list (outcome (list A))) r, Forall2 (fun x y => x = Ok y) l r -> collect l = Ok (concat r).
Proof. intros A l r H. induction H as [|x y l r -> H IH]; [reflexivity|]. cbn. rewrite IH. reflexivity. Qed.
Lemma split_reads : forall proj k bs frags s t, k_null k = false -> Forall (fun c => (0 <= c)%Z) proj -> 0 < bs ->
  Forall (fun g => rfrag_ok g /\ (rg_seq g = None \/ k_id k = false)) frags ->
  collect (map (fun '(g, (a, b)) => read_range g proj k a b bs) (split_range frags s t)) =
  Ok (firstn t (skipn s (flat_map (fun g => map (want g proj k) (live_offsets g)) frags))).
Proof.
  intros proj k bs frags. induction frags as [|g frags IH]; intros s t KN P Hb F.
  - destruct t; cbn; [reflexivity|]. rewrite skipn_nil. reflexivity.
  - destruct t as [|t']; [reflexivity|]. remember (S t') as t eqn:ET. inversion F as [|? ? [O Q] F']; subst x l. cbn [split_range flat_map]. subst t. cbn [split_range].
    remember (S t') as t eqn:ET. rewrite (count_live g O). set (rows := map (want g proj k) (live_offsets g)). assert (LR : length rows = length (live_offsets g)) by (apply map_length).
    destruct (length (live_offsets g) <=? s) eqn:C.
    + apply Nat.leb_le in C. rewrite IH by assumption. rewrite skipn_app, (skipn_all2 rows) by lia. rewrite LR. reflexivity.
    + apply Nat.leb_gt in C. cbn [map collect].
      destruct (read_range_exact g proj k s (s + Nat.min (length (live_offsets g) - s) t) bs O P Hb ltac:(lia) ltac:(lia) Q) as [out [E [X _]]]. rewrite E, (X KN). rewrite IH by assumption. f_equal.
      rewrite skipn_O, skipn_app. replace (s - length rows) with 0 by lia. rewrite skipn_O, firstn_app, skipn_length. rewrite LR.
      replace (s + Nat.min (length (live_offsets g) - s) t - s) with (Nat.min (length (live_offsets g) - s) t) by lia.
      rewrite <- firstn_map, <- skipn_map. fold rows. f_equal.
      * destruct (Nat.le_gt_cases t (length (live_offsets g) - s)).
        -- rewrite Nat.min_r by lia. reflexivity.
        -- rewrite Nat.min_l by lia. rewrite !firstn_all2; rewrite ?skipn_length; lia || reflexivity.
      * f_equal. lia.
Qed.
Lemma all_reads : forall proj k bs frags, k_null k = false -> Forall (fun c => (0 <= c)%Z) proj -> 0 < bs ->
  Forall (fun g => rfrag_ok g /\ (Forall (has_file g) proj \/ forall o, o < rg_phys g -> is_deleted g o = false)) frags ->
  collect (map (fun g => read_all g proj k bs) frags) = Ok (flat_map (fun g => map (want g proj k) (live_offsets g)) frags).
Proof.
  intros proj k bs frags KN P Hb F. induction F as [|g frags [O H] F IH]; [reflexivity|]. cbn [map collect flat_map].
  destruct (read_all_exact g proj k bs O P Hb H) as [out [E [X _]]]. rewrite E, (X KN), IH. reflexivity.
Qed.
Lemma table_length : forall frags q, Forall rfrag_ok frags -> length (table_rows frags q) = sumn (map count_rows frags).
Proof. intros frags q F. unfold table_rows. induction F as [|g frags O F IH]; [reflexivity|]. cbn [flat_map map sumn]. rewrite app_length, map_length, IH, (count_live g O). reflexivity. Qed.

(* the range pushed into the scan selects the page *)
Lemma range_page : forall q n s e (l : list srow), limit_accepted q = true -> (Z.of_nat (length l) <= n)%Z -> scan_range q n = Some (s, e) ->
  firstn (Z.to_nat (e - s)) (skipn (Z.to_nat s) l) = page (q_limit q) (q_offset q) l.
Proof.
  intros q n s e l A L E. unfold limit_accepted in A. apply andb_true_iff in A as [A1 A2]. unfold scan_range in E. destruct (q_filter q); [discriminate|].
  unfold page. destruct (q_limit q) as [lm|], (q_offset q) as [o|]; try discriminate; injection E as <- <-; try apply Z.leb_le in A1; try apply Z.leb_le in A2.
  - destruct (Z.le_gt_cases n o) as [C|C].
    + rewrite Z.min_r by lia. rewrite !skipn_all2 by lia. rewrite !firstn_nil. reflexivity.
    + rewrite (Z.min_l o n) by lia. destruct (two63 <=? o + lm)%Z; [f_equal; lia|]. destruct (Z.le_gt_cases (o + lm) n).
      * f_equal. lia.
      * rewrite !firstn_all2; rewrite ?skipn_length; try lia. reflexivity.
  - rewrite skipn_O. change (Z.to_nat 0) with 0. rewrite skipn_O. destruct (Z.le_gt_cases lm n).
    + f_equal. lia.
    + rewrite !firstn_all2; try lia. reflexivity.
  - destruct (Z.le_gt_cases n o) as [C|C].
    + rewrite Z.min_r by lia. rewrite !skipn_all2 by lia. rewrite firstn_nil. reflexivity.
    + rewrite Z.min_l by lia. apply firstn_all2. rewrite skipn_length. lia.
Qed.

(* ---- the scan ---- *)
Definition readable (q : query) (g : rfrag) : Prop :=
  rfrag_ok g /\ (rg_seq g = None \/ k_id (q_conf q) = false) /\ (Forall (has_file g) (q_proj q) \/ forall o, o < rg_phys g -> is_deleted g o = false).
Definition query_ok (q : query) : Prop := limit_accepted q = true /\ k_null (q_conf q) = false /\ Forall (fun c => (0 <= c)%Z) (q_proj q) /\ 0 < q_batch q.

Lemma scan_rows : forall legacy ds frags q, query_ok q -> Forall (readable q) frags -> (exists rest, Permutation ds (frags ++ rest)) ->
  let range := scan_range q (Z.of_nat (sumn (map count_rows ds))) in
  scan_frags legacy frags range q = Ok (match legacy, range with false, Some _ => page (q_limit q) (q_offset q) (table_rows frags q) | _, _ => table_rows frags q end).
Proof.
  intros legacy ds frags q [A [KN [P B]]] R [rest I] range.
  assert (ALL : collect (map (fun g => read_all g (q_proj q) (q_conf q) (q_batch q)) frags) = Ok (table_rows frags q)).
  { apply all_reads; auto. eapply Forall_impl; [|exact R]. intros g [X [_ Y]]. auto. }
  unfold scan_frags. destruct legacy; [exact ALL|]. destruct range as [[s e]|] eqn:E; [|exact ALL].
  rewrite split_reads; auto; [|eapply Forall_impl; [|exact R]; intros g [X [Y _]]; auto]. f_equal. eapply range_page; [exact A| |exact E].
  fold (table_rows frags q). rewrite table_length by (eapply Forall_impl; [|exact R]; intros g [X _]; exact X).
  assert (LE : sumn (map count_rows frags) <= sumn (map count_rows ds)).
  { assert (SP : forall a b, Permutation a b -> sumn a = sumn b) by (intros a b X; induction X; cbn; lia). rewrite (SP _ _ (Permutation_map count_rows I)), map_app, sumn_app. lia. }
  lia.
Qed.

(* right when no order is asked for with a pushed-down page, and the limit is not a dropped 0 *)
Theorem limit_exact : forall sort legacy ds frags q, query_ok q -> Forall (readable q) frags -> (exists rest, Permutation ds (frags ++ rest)) ->
  (forall le, q_order q = Some le -> sorts sort le) ->
  (q_order q = None \/ q_filter q <> None \/ legacy = true \/ (q_limit q = None /\ q_offset q = None)) ->
  (q_limit q <> Some 0%Z \/ q_offset q <> None \/ (legacy = false /\ q_filter q = None)) ->
  exists out, run_scan sort legacy ds frags q = Ok out /\ answers frags q out.
Proof.
  intros sort legacy ds frags q QO R I S C1 C2. unfold run_scan. assert (A := proj1 QO). rewrite A. cbn [negb]. pose proof (scan_rows legacy ds frags q QO R I) as SR. cbv zeta in SR. rewrite SR. cbn [bind_rows]. clear SR.
  set (n := Z.of_nat (sumn (map count_rows ds))). eexists. split; [reflexivity|]. unfold answers.
  assert (FP : (match q_filter q with Some p => filter p (table_rows frags q) | None => table_rows frags q end) = passing frags q).
  { unfold passing. destruct (q_filter q); [reflexivity|]. rewrite filter_all_true; auto. }
  set (ordered := match q_order q with Some le => sort le (passing frags q) | None => passing frags q end).
  assert (OO : match q_order q with None => ordered = passing frags q | Some le => Permutation ordered (passing frags q) /\ StronglySorted (fun a b => le a b = true) ordered end).
  { unfold ordered. destruct (q_order q) as [le|]; [|reflexivity]. apply (S le eq_refl). }
  set (use := negb (match scan_range q n with Some _ => negb legacy | None => false end)).
  destruct use eqn:U.
  - (* the limit node *)
    assert (SRC : (match legacy with true => table_rows frags q | false => match scan_range q n with Some _ => page (q_limit q) (q_offset q) (table_rows frags q) | None => table_rows frags q end end) = table_rows frags q).
    { unfold use in U. destruct legacy; [reflexivity|]. destruct (scan_range q n); [discriminate|reflexivity]. }
    rewrite SRC, FP. fold ordered. exists ordered. split; [exact OO|]. cbn [andb].
    destruct ((match q_limit q with Some l => (0 <? l)%Z | None => false end) || (match q_offset q with Some _ => true | None => false end)) eqn:L; [reflexivity|].
    apply orb_false_iff in L as [L1 L2]. unfold page. destruct (q_offset q) as [o|] eqn:EO; [discriminate|]. rewrite skipn_O. destruct (q_limit q) as [l|] eqn:EL; [|reflexivity].
    exfalso. apply Z.ltb_ge in L1. unfold limit_accepted in A. rewrite EL in A. apply andb_true_iff in A as [A _]. apply Z.leb_le in A. assert (l = 0%Z) by lia. subst l.
    destruct C2 as [C2|[C2|[C2 C3]]]; try congruence. unfold use in U. rewrite C2 in U. unfold scan_range in U. rewrite C3, EL, EO in U. discriminate.
  - (* pushed down *)
    unfold use in U. destruct legacy; [destruct (scan_range q n); discriminate|]. destruct (scan_range q n) as [[s e]|] eqn:ER; [|discriminate].
    assert (NF : q_filter q = None) by (unfold scan_range in ER; destruct (q_filter q); [discriminate|reflexivity]).
    assert (NO : q_order q = None). { destruct C1 as [C1|[C1|[C1|[C1 C3]]]]; auto; try congruence. unfold scan_range in ER. rewrite NF, C1, C3 in ER. discriminate. }
    rewrite NF, NO in *. exists (passing frags q). split; [reflexivity|]. rewrite <- FP. reflexivity.
Qed.

(* an ordered, unfiltered page of a v2 table: the page is taken first, then sorted *)
Theorem order_after_limit : forall sort ds frags q le, query_ok q -> Forall (readable q) frags -> (exists rest, Permutation ds (frags ++ rest)) ->
  q_order q = Some le -> q_filter q = None -> (q_limit q <> None \/ q_offset q <> None) ->
  run_scan sort false ds frags q = Ok (sort le (page (q_limit q) (q_offset q) (table_rows frags q))).
Proof.
  intros sort ds frags q le QO R I EO NF L. unfold run_scan. assert (A := proj1 QO). rewrite A. cbn [negb]. pose proof (scan_rows false ds frags q QO R I) as SR. cbv zeta in SR. rewrite SR. cbn [bind_rows]. rewrite NF, EO.
  assert (ER : exists s e, scan_range q (Z.of_nat (sumn (map count_rows ds))) = Some (s, e)). { unfold scan_range. rewrite NF. destruct (q_limit q), (q_offset q); eauto. destruct L; congruence. }
  destruct ER as [s [e ER]]. rewrite ER. reflexivity.
Qed.
(* a limit of 0 on a filtered scan is ignored *)
Theorem zero_limit_ignored : forall sort legacy ds frags q p, query_ok q -> Forall (readable q) frags -> (exists rest, Permutation ds (frags ++ rest)) ->
  q_filter q = Some p -> q_order q = None -> q_limit q = Some 0%Z -> q_offset q = None ->
  run_scan sort legacy ds frags q = Ok (passing frags q).
Proof.
  intros sort legacy ds frags q p QO R I EF EO EL ES. unfold run_scan. assert (A := proj1 QO). rewrite A. cbn [negb]. pose proof (scan_rows legacy ds frags q QO R I) as SR. cbv zeta in SR. rewrite SR. cbn [bind_rows].
  assert (ER : scan_range q (Z.of_nat (sumn (map count_rows ds))) = None) by (unfold scan_range; rewrite EF; reflexivity). rewrite ER, EF, EO, EL, ES. unfold passing. rewrite EF. destruct legacy; reflexivity.
Qed.

(* ---- counterexamples and an instance ---- *)
Definition lim_file (l : list value) : rfile := {| rf_fields := [0]%Z; rf_rows := length l; rf_col := fun _ => l |}.
Definition lim_frag (i : N) (l : list value) (d : option dv) : rfrag := {| rg_id := i; rg_phys := length l; rg_files := [lim_file l]; rg_dv := d; rg_seq := None |}.
Definition key (r : srow) : Z := match o_val r with (_, Some z) :: _ => z | _ => 0%Z end.
Definition key_le (a b : srow) : bool := (key a <=? key b)%Z.
Fixpoint ins_by (le : srow -> srow -> bool) (x : srow) (l : list srow) : list srow :=
  match l with [] => [x] | y :: t => if le x y then x :: l else y :: ins_by le x t end.
Definition sort_by (le : srow -> srow -> bool) (l : list srow) : list srow := fold_right (ins_by le) [] l.
Lemma ins_by_perm : forall le x l, Permutation (ins_by le x l) (x :: l).
Proof. intros le x. induction l as [|y l IH]; cbn; [reflexivity|]. destruct (le x y); [reflexivity|]. etransitivity; [apply perm_skip, IH|apply perm_swap]. Qed.
Lemma sort_by_sorts : sorts sort_by key_le.
Proof.
  intros l. unfold sort_by. induction l as [|x l [IH1 IH2]]; cbn [fold_right]; [split; constructor|]. split.
  - etransitivity; [apply ins_by_perm|]. apply perm_skip. exact IH1.
  - clear IH1. induction IH2 as [|y t H IH F]; cbn; [constructor; constructor|]. destruct (key_le x y) eqn:E.
    + constructor; [constructor; assumption|]. constructor; [exact E|]. eapply Forall_impl; [|exact F]. intros z Z. unfold key_le in *. apply Z.leb_le in E, Z. apply Z.leb_le. lia.
    + constructor; [exact IH|]. rewrite Forall_forall in *. intros z J. apply (Permutation_in _ (ins_by_perm key_le x t)) in J. destruct J as [<-|J]; [|auto]. unfold key_le in *. apply Z.leb_gt in E. apply Z.leb_le. lia.
Qed.
Definition lim_query (f : option (srow -> bool)) (o : option (srow -> srow -> bool)) (l s : option Z) : query :=
  {| q_filter := f; q_order := o; q_limit := l; q_offset := s; q_proj := [0]%Z; q_conf := plain; q_batch := 8 |}.
Lemma lim_frag_ok : forall i l q, (i < two32)%N -> (N.of_nat (length l) < two32)%N -> q_proj q = [0]%Z -> readable q (lim_frag i l None).
Proof.
  intros i l q H1 H2 HP. split; [|split; [left; reflexivity|left; rewrite HP; constructor; [exists (lim_file l); split; left; reflexivity|constructor]]].
  split; [exact H1|]. split; [exact H2|]. split; [constructor; [reflexivity|constructor]|]. split; discriminate.
Qed.

Theorem order_limit_refuted : exists sort le ds q out, sorts sort le /\ query_ok q /\ Forall (readable q) ds /\ q_order q = Some le /\
  run_scan sort false ds ds q = Ok out /\ ~ answers ds q out.
Proof.
  exists sort_by, key_le, [lim_frag 0 [Some 5; Some 3]%Z None; lim_frag 1 [Some 1]%Z None], (lim_query None (Some key_le) (Some 1%Z) None). eexists.
  split; [exact sort_by_sorts|]. split; [repeat split; try (repeat constructor; lia); cbn; lia|]. split; [repeat (apply Forall_cons; [apply lim_frag_ok; reflexivity|]); apply Forall_nil|]. split; [reflexivity|]. split; [vm_compute; reflexivity|].
  intros [l [[P S] E]]. cbn [lim_query q_limit q_offset page] in E. rewrite skipn_O in E. change (Z.to_nat 1) with 1 in E.
  destruct l as [|x l]; [discriminate|]. cbn in E. injection E as E. subst x.
  assert (J : In {| o_val := [(0, Some 1)]%Z; o_id := NoCol; o_addr := NoCol |} ({| o_val := [(0, Some 5)]%Z; o_id := NoCol; o_addr := NoCol |} :: l)).
  { apply (Permutation_in _ (Permutation_sym P)). vm_compute. tauto. }
  inversion S as [|? ? _ F]; subst. destruct J as [J|J]; [discriminate|]. rewrite Forall_forall in F. apply F in J. vm_compute in J. discriminate.
Qed.
Theorem zero_limit_refuted : exists sort ds q out, query_ok q /\ Forall (readable q) ds /\ q_order q = None /\ q_limit q = Some 0%Z /\
  run_scan sort false ds ds q = Ok out /\ out <> [] /\ ~ answers ds q out.
Proof.
  exists sort_by, [lim_frag 0 [Some 5; Some 3]%Z None], (lim_query (Some (fun r => (3 <? key r)%Z)) None (Some 0%Z) None). eexists.
  split; [repeat split; try (repeat constructor; lia); cbn; lia|]. split; [repeat (apply Forall_cons; [apply lim_frag_ok; reflexivity|]); apply Forall_nil|]. split; [reflexivity|]. split; [reflexivity|]. split; [vm_compute; reflexivity|]. split; [discriminate|].
  intros [l [_ E]]. cbn [lim_query q_limit q_offset page] in E. rewrite skipn_O in E. discriminate.
Qed.
(* rows 2..4 of a table of two fragments, one with a deletion *)
Example limit_instance : let d := lim_frag 0 [Some 5; Some 3; Some 8]%Z (Some (DBitmap [1]%N)) in let q := lim_query None None (Some 2%Z) (Some 1%Z) in
  query_ok q /\ readable q d /\ readable q (lim_frag 1 [Some 1; Some 9]%Z None) /\
  run_scan sort_by false [d; lim_frag 1 [Some 1; Some 9]%Z None] [d; lim_frag 1 [Some 1; Some 9]%Z None] q =
  Ok [ {| o_val := [(0, Some 8)]%Z; o_id := NoCol; o_addr := NoCol |}; {| o_val := [(0, Some 1)]%Z; o_id := NoCol; o_addr := NoCol |} ].
Proof.
  intros d q. split; [repeat split; try (repeat constructor; lia); cbn; lia|]. split.
  - split; [|split; [left; reflexivity|left; constructor; [eexists; split; [left; reflexivity|left; reflexivity]|constructor]]].
    split; [reflexivity|]. split; [reflexivity|]. split; [constructor; [reflexivity|constructor]|]. split; [|discriminate]. intros x E. injection E as <-. split; [cbn; tauto|]. intros y [<-|[]]. reflexivity.
  - split; [apply lim_frag_ok; reflexivity|vm_compute; reflexivity].
Qed.
