(* Lists of any depth without nulls and without empty lists (C107). *)
From Coq Require Import List Arith Bool Lia.
From Verif Require Import Lib RepDefModel RepDefProofs RepDefRead RepDefList RepDefListRead.
Import ListNotations.
Local Open Scope nat_scope.

(* ---- specification ---- *)
(* arrays handed to the encoder, outermost first: lists by their offsets, structs and items by their number *)
Inductive ninput := NList (os : list nat) | NItem (n : nat).
Definition n_kind (i : ninput) : kind := match i with NList _ => KList | NItem _ => KItem end.
Definition add_ninput (i : ninput) (b : builder) : option builder := match i with NList os => add_offsets os None b | NItem n => add_validity None n b end.
Definition build_n (is : list ninput) : option builder := fold_left (fun b i => obind b (add_ninput i)) is (Some new_builder).
Definition filled (i : ninput) : Prop := match i with NList os => Forall (fun n => 0 < n) (lens os) | NItem _ => True end.
Definition narray_ok (ks : list kind) (is : list ninput) : Prop := Forall filled is /\ (exists b, build_n is = Some b) /\ rev (map n_kind is) = ks.
Definition n_lens (i : ninput) : option (list nat) := match i with NList os => Some (lens os) | NItem _ => None end.
(* the lists of every layer, innermost first, of arrays one after the other *)
Fixpoint joinl (ks : list kind) (xs : list (list (option (list nat)))) : list (option (list nat)) :=
  match ks with
  | [] => []
  | k :: t => (match k with KList => Some (flat_map (fun x => match x with Some l :: _ => l | _ => [] end) xs) | _ => None end) :: joinl t (map (@tl _) xs)
  end.
Definition page_lens (ks : list kind) (p : list (list ninput)) : list (option (list nat)) := joinl ks (map (fun is => rev (map n_lens is)) p).
Definition write_nested (p : list (list ninput)) : option levels := obind (sequence_opt (map build_n p)) serialize.
(* a layer read back *)
Definition got_is (x : option (list nat)) (g : got) : Prop := match x with Some ls => exists os, g = GList os None /\ lens os = ls | None => g = GValid None end.

(* ---- levels ---- *)
(* innermost first *)
Fixpoint nest (n : nat) (ns : list (option (list nat))) : Prop := match ns with [] => True | None :: t => nest n t | Some ls :: t => sumn ls = n /\ Forall (fun x => 0 < x) ls /\ nest (length ls) t end.
Fixpoint spread (ls rs : list nat) : list nat := match ls, rs with x :: s, r :: t => S r :: repeat 0 (x - 1) ++ spread s t | _, _ => [] end.
Fixpoint reps (n : nat) (ns : list (option (list nat))) : list nat := match ns with [] => repeat 0 n | None :: t => reps n t | Some ls :: t => spread ls (reps (length ls) t) end.
Lemma spread_length : forall ls rs, Forall (fun x => 0 < x) ls -> length rs = length ls -> length (spread ls rs) = sumn ls.
Proof. intros ls rs F. revert rs. induction F as [|x ls X F IH]; intros [|r rs] L; try discriminate; [reflexivity|]. cbn [spread sumn length]. rewrite app_length, repeat_length, IH by (cbn in L; lia). lia. Qed.
Lemma reps_length : forall ns n, nest n ns -> length (reps n ns) = n.
Proof. induction ns as [|[ls|] t IH]; intros n H; cbn in *; [apply repeat_length| |auto]. destruct H as [H1 [H2 H3]]. rewrite spread_length; auto. Qed.
Fixpoint begins (a : nat) (ls : list nat) : list nat := match ls with [] => [] | x :: t => a :: begins (a + x) t end.
Lemma begins_length : forall ls a, length (begins a ls) = length ls.
Proof. induction ls as [|x t IH]; intros a; cbn; auto. Qed.
Lemma begins_bound : forall ls a i, Forall (fun x => 0 < x) ls -> In i (begins a ls) -> a <= i < a + sumn ls.
Proof. intros ls a i F. revert a. induction F as [|x ls X F IH]; intros a J; [destruct J|]. cbn in *. destruct J as [<-|J]; [lia|]. apply IH in J. lia. Qed.
Lemma begins_nodup : forall ls a, Forall (fun x => 0 < x) ls -> NoDup (begins a ls).
Proof. intros ls a F. revert a. induction F as [|x ls X F IH]; intros a; constructor; [|apply IH]. intros J. apply begins_bound in J; [lia|exact F]. Qed.
Lemma nth_spread : forall ls rs a, Forall (fun x => 0 < x) ls -> length rs = length ls ->
  (forall j, j < length ls -> nth (nth j (begins a ls) 0 - a) (spread ls rs) 0 = S (nth j rs 0)) /\ (forall i, ~ In (a + i) (begins a ls) -> nth i (spread ls rs) 0 = 0).
Proof.
  intros ls rs a F. revert rs a. induction F as [|x ls X F IH]; intros [|r rs] a L; try discriminate; [split; [intros j J; cbn in J; lia|intros i _; destruct i; reflexivity]|].
  cbn in L. destruct (IH rs (a + x) ltac:(lia)) as [I1 I2]. assert (SH : forall i, x <= i -> nth i (spread (x :: ls) (r :: rs)) 0 = nth (i - x) (spread ls rs) 0).
  { intros i Hi. cbn [spread]. destruct i as [|i]; [lia|]. cbn [nth]. rewrite app_nth2 by (rewrite repeat_length; lia). rewrite repeat_length. f_equal. lia. }
  split.
  - intros j J. destruct j as [|j]; [cbn [begins nth]; rewrite Nat.sub_diag; reflexivity|]. cbn [begins nth]. cbn [length] in J. assert (Jb : In (nth j (begins (a + x) ls) 0) (begins (a + x) ls)) by (apply nth_In; rewrite begins_length; lia). apply begins_bound in Jb; [|exact F]. rewrite SH by lia. rewrite <- (I1 j) by lia. f_equal. lia.
  - intros i H. cbn [begins] in H. destruct (le_lt_dec x i) as [Q|Q].
    + rewrite SH by exact Q. apply I2. intros J. apply H. right. replace (a + x + (i - x)) with (a + i) in J by lia. exact J.
    + destruct i as [|i]; [exfalso; apply H; left; lia|]. cbn [spread nth]. rewrite app_nth1 by (rewrite repeat_length; lia). apply nth_repeat.
Qed.

(* ---- writing ---- *)
Lemma set_at_nth : forall (l : list nat) i x, i < length l -> exists l', set_at i x l = Some l' /\ length l' = length l /\ forall j, nth j l' 0 = if j =? i then x else nth j l 0.
Proof.
  induction l as [|y l IH]; intros i x H; [cbn in H; lia|]. destruct i as [|i]; [exists (x :: l); cbn; split; [reflexivity|]; split; [reflexivity|]; intros [|j]; reflexivity|].
  destruct (IH i x ltac:(cbn in H; lia)) as [l' [E1 [E2 E3]]]. exists (y :: l'). cbn [set_at]. rewrite E1. split; [reflexivity|]. split; [cbn; congruence|]. intros [|j]; [reflexivity|]. cbn. apply E3.
Qed.
(* the places of the rows of a layer *)
Definition places (off : option (list nat * list nat)) (lo : list nat) : Prop := match off with None => lo = seq 0 (length lo) | Some (x, y) => x = lo /\ y = lo end.
Lemma walk_step' : forall off lo r a b t rep, places off lo -> a < length lo -> a < b -> walk off r (a :: b :: t) 0 rep =
  obind (set_at (nth a lo 0) r rep) (fun rp => omap (fun '(l1, l2, r) => (nth a lo 0 :: l1, nth a lo 0 :: l2, r)) (walk off r (b :: t) 0 rp)).
Proof.
  intros off lo r a b t rep P A B. assert (E : (a =? b) = false) by (apply Nat.eqb_neq; lia). destruct off as [[x y]|]; cbn [places] in P.
  - destruct P as [-> ->]. change (walk (Some (lo, lo)) r (a :: b :: t) 0 rep) with (obind (match nth_error lo a, nth_error lo a with Some x, Some y => Some (x, y) | _, _ => None end) (fun '(x, y) => if a =? b then omap (fun '(l1, l2, r) => (x :: l1, (y + 0) :: l2, r)) (walk (Some (lo, lo)) r (b :: t) 1 rep) else obind (set_at x r rep) (fun rp => omap (fun '(l1, l2, r) => (x :: l1, (y + 0) :: l2, r)) (walk (Some (lo, lo)) r (b :: t) 0 rp)))).
    rewrite (nth_error_nth' lo 0 A). cbn [obind]. rewrite E, Nat.add_0_r. reflexivity.
  - rewrite walk_step, E, Nat.add_0_r. assert (Q : nth a lo 0 = a) by (rewrite P; apply seq_nth; exact A). rewrite Q. reflexivity.
Qed.
Lemma walk_nest : forall ls off lo r a rep, places off lo -> Forall (fun x => 0 < x) ls -> a + sumn ls = length lo -> NoDup lo -> (forall x, In x lo -> x < length rep) ->
  exists rep', walk off r (a :: sums a (map Some ls)) 0 rep = Some (map (fun i => nth i lo 0) (begins a ls), map (fun i => nth i lo 0) (begins a ls), rep') /\ length rep' = length rep /\
    (forall i, In i (begins a ls) -> nth (nth i lo 0) rep' 0 = r) /\ (forall x, (forall i, In i (begins a ls) -> nth i lo 0 <> x) -> nth x rep' 0 = nth x rep 0).
Proof.
  intros ls off lo r a rep P F. revert a rep. induction F as [|x ls X F IH]; intros a rep S N B.
  - exists rep. cbn. repeat split; auto. intros i [].
  - cbn [map sums size]. cbn [sumn] in S. rewrite (walk_step' off lo r a (a + x) _ rep P) by lia. assert (Ba : nth a lo 0 < length rep) by (apply B; apply nth_In; lia).
    destruct (set_at_nth rep (nth a lo 0) r Ba) as [r1 [E1 [E2 E3]]]. rewrite E1. cbn [obind]. destruct (IH (a + x) r1 ltac:(lia) N) as [rep' [I1 [I2 [I3 I4]]]]; [intros y J; rewrite E2; apply B; exact J|].
    rewrite I1. cbn [omap]. exists rep'. split; [reflexivity|]. split; [congruence|]. cbn [begins]. split.
    + intros i [<-|J]; [|apply I3; exact J]. rewrite I4; [rewrite E3, Nat.eqb_refl; reflexivity|]. intros i J Q. apply begins_bound in J; [|exact F]. apply (proj1 (NoDup_nth lo 0) N) in Q; lia.
    + intros y H. rewrite I4 by (intros i J; apply H; right; exact J). rewrite E3. destruct (Nat.eqb_spec y (nth a lo 0)) as [->|Q]; [|reflexivity]. exfalso. apply (H a); [left; reflexivity|reflexivity].
Qed.
Definition nmean (x : option (list nat)) : meaning := if is_some x then AllValidList else AllValidItem.
Definition nlayer (x : option (list nat)) (l : layer) : Prop := match x with Some ls => l = layer_of false (map Some ls) | None => exists n, l = LValidity None n end.
Lemma no_sp : forall ls i, Forall (fun x => 0 < x) ls -> sp_of i (map Some ls) = [] /\ existsb is_empty (map Some ls) = false.
Proof. intros ls i F. revert i. induction F as [|[|x] ls X F IH]; intros i; [auto|lia|]. cbn. apply IH. Qed.
Lemma record_nest : forall ns ly, Forall2 nlayer ns ly -> forall c lo, places (c_off c) lo -> NoDup lo -> (forall x, In x lo -> x < length (c_rep c)) -> nest (length lo) ns -> c_mult c = 1 -> c_specials c = [] -> 0 < c_cur_rep c ->
  exists c', record_all c ly = Some c' /\ c_specials c' = [] /\ c_meaning c' = c_meaning c ++ map nmean ns /\ c_nulls c' = c_nulls c /\ c_cur_rep c <= c_cur_rep c' /\ (existsb is_some ns = true -> c_cur_rep c < c_cur_rep c') /\ length (c_rep c') = length (c_rep c) /\
    (forall j, j < length lo -> nth (nth j lo 0) (c_rep c') 0 = let x := nth j (reps (length lo) ns) 0 in if x =? 0 then nth (nth j lo 0) (c_rep c) 0 else c_cur_rep c - 1 + x) /\
    (forall i, ~ In i lo -> nth i (c_rep c') 0 = nth i (c_rep c) 0).
Proof.
  intros ns ly H. induction H as [|x l ns ly H1 H IH]; intros c lo P N B T M SP CR.
  - exists c. unfold record_all. cbn [fold_left]. rewrite app_nil_r. split; [reflexivity|]. split; [exact SP|]. split; [reflexivity|]. split; [reflexivity|]. split; [lia|]. split; [discriminate|]. split; [reflexivity|]. split; [|reflexivity]. intros j J. cbn [reps]. rewrite nth_repeat. reflexivity.
  - rewrite record_all_cons. destruct x as [ls|]; cbn [nlayer nest reps] in *.
    + destruct T as [T1 [T2 T3]]. subst l. unfold layer_of. cbn [record]. unfold record_offsets. rewrite M, SP. destruct (no_sp ls 0 T2) as [-> ->]. cbn [Nat.eqb negb is_some app length Nat.add].
      destruct (walk_nest ls (c_off c) lo (c_cur_rep c) 0 (c_rep c) P T2 ltac:(lia) N B) as [rep' [W1 [W2 [W3 W4]]]]. rewrite W1. cbn [obind merge_specials omap].
      match goal with |- exists c', record_all ?y _ = _ /\ _ => set (c1 := y) end. set (lo1 := map (fun i => nth i lo 0) (begins 0 ls)) in *.
      assert (LL : length lo1 = length ls) by (unfold lo1; rewrite map_length; apply begins_length).
      assert (N1 : NoDup lo1).
      { unfold lo1. pose proof (begins_nodup ls 0 T2) as NB. assert (BB : forall i, In i (begins 0 ls) -> i < length lo) by (intros i J; apply begins_bound in J; [lia|exact T2]). revert NB BB. generalize (begins 0 ls). intros q NB BB. induction NB as [|i q Q NB IHq]; [constructor|]. cbn. constructor; [|apply IHq; intros k J; apply BB; right; exact J].
        intros J. apply in_map_iff in J as [k [E J]]. apply (proj1 (NoDup_nth lo 0) N) in E; [subst; contradiction|apply BB; right; exact J|apply BB; left; reflexivity]. }
      destruct (IH c1 lo1) as [c' [E [C1 [C2 [C3 [C4 [C5 [C6 [C7 C8]]]]]]]]]; auto.
      * unfold c1. cbn. auto.
      * intros y J. unfold c1. cbn [c_rep]. rewrite W2. apply B. unfold lo1 in J. apply in_map_iff in J as [i [<- J]]. apply nth_In. apply begins_bound in J; [lia|exact T2].
      * rewrite LL. exact T3.
      * unfold c1. cbn. lia.
      * exists c'. split; [exact E|]. split; [exact C1|]. split; [rewrite C2; unfold c1; cbn [c_meaning map]; rewrite <- app_assoc; reflexivity|]. split; [exact C3|]. split; [unfold c1 in C4; cbn in C4; lia|]. split; [intros _; unfold c1 in C4; cbn in C4; lia|]. split; [unfold c1 in C6; cbn in C6; congruence|].
        destruct (nth_spread ls (reps (length ls) ns) 0 T2 (reps_length ns _ T3)) as [S1 S2].
        assert (OUT : forall i, ~ In i lo1 -> nth i (c_rep c') 0 = nth i (c_rep c) 0).
        { intros i Hi. rewrite (C8 i Hi). unfold c1. cbn [c_rep]. apply W4. intros k J Q. apply Hi. unfold lo1. apply in_map_iff. exists k. auto. }
        split.
        -- intros j J. destruct (in_dec Nat.eq_dec j (begins 0 ls)) as [Jb|Jb].
           ++ apply (In_nth _ _ 0) in Jb as [k [K1 K2]]. rewrite begins_length in K1. specialize (S1 k K1). rewrite K2, Nat.sub_0_r in S1. rewrite S1. cbn zeta. cbn [Nat.eqb].
              assert (PL : nth k lo1 0 = nth j lo 0) by (unfold lo1; rewrite (nth_indep _ 0 ((fun i => nth i lo 0) 0)) by (rewrite map_length, begins_length; exact K1); rewrite (map_nth (fun i => nth i lo 0)), K2; reflexivity).
              specialize (C7 k ltac:(lia)). rewrite PL, LL in C7. rewrite C7. cbn zeta. unfold c1. cbn [c_rep c_cur_rep]. destruct (Nat.eqb_spec (nth k (reps (length ls) ns) 0) 0) as [Z|Z]; [|lia].
              rewrite Z, W3; [lia|]. rewrite <- K2. apply nth_In. rewrite begins_length. exact K1.
           ++ rewrite S2 by exact Jb. cbn. apply OUT. unfold lo1. intros Q. apply in_map_iff in Q as [k [E1 Q]]. apply (proj1 (NoDup_nth lo 0) N) in E1; [subst; contradiction| |exact J]. apply begins_bound in Q; [lia|exact T2].
        -- intros i Hi. apply OUT. intros J. apply Hi. unfold lo1 in J. apply in_map_iff in J as [k [<- J]]. apply nth_In. apply begins_bound in J; [lia|exact T2].
    + destruct H1 as [n ->]. cbn [record record_validity obind]. match goal with |- exists c', record_all ?y _ = _ /\ _ => set (c1 := y) end.
      destruct (IH c1 lo) as [c' [E [C1 [C2 [C3 [C4 [C5 [C6 [C7 C8]]]]]]]]]; auto; [unfold c1; cbn; lia|]. exists c'. split; [exact E|]. split; [exact C1|]. split; [rewrite C2; unfold c1; cbn [c_meaning map]; rewrite <- app_assoc; reflexivity|]. repeat split; auto.
Qed.

(* ---- reading ---- *)
Lemma unr_rep_spread : forall ls rs a, Forall (fun x => 0 < x) ls -> length rs = length ls -> unr_rep a (spread ls rs) = (begins a ls, rs).
Proof.
  intros ls rs a F. revert rs a. induction F as [|x ls X F IH]; intros [|r rs] a L; try discriminate; [reflexivity|]. cbn [spread unr_rep begins]. rewrite unr_rep_run. replace (S a + (x - 1)) with (a + x) by lia. rewrite IH by (cbn in L; lia). reflexivity.
Qed.
Lemma begins_sums : forall ls a, begins a ls ++ [a + sumn ls] = a :: sums a (map Some ls).
Proof. induction ls as [|x t IH]; intros a; [cbn; now rewrite Nat.add_0_r|]. cbn [begins map sums size app]. f_equal. rewrite <- IH. cbn [sumn]. rewrite Nat.add_assoc. reflexivity. Qed.
Definition ngot (x : option (list nat)) : got := match x with Some ls => GList (0 :: sums 0 (map Some ls)) None | None => GValid None end.
Definition nkind (x : option (list nat)) : kind := match x with Some _ => KList | None => KItem end.
Lemma read_nest : forall ns n u, nest n ns -> u_rep u = Some (reps n ns) -> u_def u = None -> (forall j, j < length ns -> nth_error (u_meaning u) (u_layer u + j) = nth_error (map nmean ns) j) ->
  read_layers (map nkind ns) [u] = Some (map ngot ns).
Proof.
  induction ns as [|x ns IH]; intros n u T R D M; [reflexivity|].
  pose proof (M 0 ltac:(cbn; lia)) as M0. rewrite Nat.add_0_r in M0. cbn [map nth_error] in M0. assert (M' : forall j, j < length ns -> nth_error (u_meaning u) (S (u_layer u) + j) = nth_error (map nmean ns) j) by (intros j J; specialize (M (S j) ltac:(cbn; lia)); cbn [map nth_error] in M; rewrite <- M; f_equal; lia).
  destruct x as [ls|]; cbn [map nkind ngot read_layers nest reps] in *.
  - destruct T as [T1 [T2 T3]]. unfold c_unravel_offsets, all_valid_layer. cbn [map sequence_opt]. unfold u_all_valid. rewrite M0. cbn [omap obind c_offsets nmean is_some m_all_valid forallb andb].
    pose proof (reps_length ns _ T3) as LR. unfold unravel_offsets. rewrite R. cbn [obind]. rewrite M0. cbn [nmean is_some obind last removelast app]. rewrite D, (unr_rep_spread ls _ 0 T2 LR). rewrite spread_length by auto. rewrite begins_sums. cbn [omap obind].
    rewrite (IH (length ls)); [reflexivity|exact T3| |reflexivity|exact M'].
    cbn [u_rep]. f_equal. cbn [length]. rewrite sums_length, map_length, Nat.sub_succ, Nat.sub_0_r. rewrite firstn_app, LR, Nat.sub_diag, firstn_O, app_nil_r. apply firstn_all2. lia.
  - rewrite (one_step u (skip_validity u) None); [|unfold step1, u_all_valid; rewrite M0; reflexivity]. cbn [obind]. rewrite (IH n); auto.
Qed.

(* ---- pages ---- *)
Definition n_layer (i : ninput) : layer := match i with NList os => layer_of false (map Some (lens os)) | NItem n => LValidity None n end.
Definition n_in (i : ninput) : nat := match i with NList os => length (lens os) | NItem n => n end.
Definition n_out (i : ninput) : nat := match i with NList os => sumn (lens os) | NItem n => n end.
Fixpoint nlinked (n : nat) (is : list ninput) : Prop := match is with [] => True | i :: t => n_in i = n /\ nlinked (n_out i) t end.
Lemma total_some : forall l, total (map Some l) = sumn l.
Proof. intros l. unfold total. rewrite map_map. f_equal. apply map_id. Qed.
Lemma build_n_from : forall is b0 b, fold_left (fun b i => obind b (add_ninput i)) is (Some b0) = Some b ->
  b_layers b = b_layers b0 ++ map n_layer is /\ (match is with [] => b = b0 | i :: _ => b_len b = Some (n_out (last is i)) end) /\ match b_len b0 with Some k => nlinked k is | None => match is with [] => True | i :: t => nlinked (n_out i) t end end.
Proof.
  induction is as [|i t IH]; intros b0 b H.
  - cbn in H. injection H as <-. rewrite app_nil_r. split; [reflexivity|]. split; [reflexivity|]. destruct (b_len b0); exact Logic.I.
  - cbn [fold_left obind] in H. destruct (add_ninput i b0) as [b1|] eqn:E; [|rewrite fold_none in H; discriminate].
    assert (E1 : b_layers b1 = b_layers b0 ++ [n_layer i] /\ b_len b1 = Some (n_out i) /\ match b_len b0 with Some k => n_in i = k | None => True end).
    { destruct i as [os|n]; cbn [add_ninput] in E.
      - apply add_offsets_eq in E as [-> L]; [|exact Logic.I]. unfold push. cbn [b_layers b_len n_layer n_out n_in is_some]. unfold lists_of. rewrite total_some. split; [reflexivity|]. split; [reflexivity|]. unfold len_is, lists_of in L. rewrite map_length in L. destruct (b_len b0); [|exact Logic.I]. apply Nat.eqb_eq in L. auto.
      - unfold add_validity, len_is in E. destruct (b_len b0) as [k|]; [destruct (Nat.eqb_spec k n); [|discriminate]|]; injection E as <-; cbn; auto. }
    destruct E1 as [L1 [L2 L3]]. destruct (IH b1 b H) as [I1 [I2 I3]]. rewrite L2 in I3. split; [|split].
    + rewrite I1, L1, <- app_assoc. reflexivity.
    + destruct t as [|j t']; [rewrite I2, L2; reflexivity|]. rewrite I2. f_equal. f_equal. clear. revert i j. induction t' as [|k t' IH]; intros i j; [reflexivity|]. change (last (j :: k :: t') j) with (last (k :: t') j). change (last (i :: j :: k :: t') i) with (last (k :: t') i). clear. revert i j k. induction t' as [|m t' IH]; intros i j k; [reflexivity|]. change (last (m :: t') j = last (m :: t') i). apply IH.
    + destruct (b_len b0) as [k|]; [split; [exact L3|exact I3]|exact I3].
Qed.
Lemma nest_none : forall ns n t, nest n (ns ++ t) -> nest n ns.
Proof. induction ns as [|[ls|] ns IH]; intros n t H; cbn in *; auto; [destruct H as [H1 [H2 H3]]; repeat split; eauto|eauto]. Qed.
(* the rows above the layers *)
Fixpoint top (n : nat) (ns : list (option (list nat))) : nat := match ns with [] => n | None :: t => top n t | Some ls :: t => top (length ls) t end.
Lemma nest_snoc : forall ns n x, nest n ns -> match x with Some ls => sumn ls = top n ns /\ Forall (fun y => 0 < y) ls | None => True end -> nest n (ns ++ [x]) /\ top n (ns ++ [x]) = match x with Some ls => length ls | None => top n ns end.
Proof.
  induction ns as [|[ls|] ns IH]; intros n x H X; cbn [app nest top] in *.
  - destruct x as [ls|]; cbn; [destruct X; auto|auto].
  - destruct H as [H1 [H2 H3]]. destruct (IH _ x H3 X) as [I1 I2]. auto.
  - apply IH; auto.
Qed.
Lemma nlinked_nest : forall is k, nlinked k is -> Forall filled is -> is <> [] -> forall d, nest (n_out (last is d)) (rev (map n_lens is)) /\ top (n_out (last is d)) (rev (map n_lens is)) = k.
Proof.
  induction is as [|i t IH]; intros k L F N d; [congruence|]. destruct L as [L1 L2]. inversion F as [|? ? F1 F2]; subst. cbn [map rev].
  assert (B : nest (n_out (last (i :: t) d)) (rev (map n_lens t)) /\ top (n_out (last (i :: t) d)) (rev (map n_lens t)) = n_out i).
  { destruct t as [|j t]; [cbn; auto|]. change (last (i :: j :: t) d) with (last (j :: t) d). apply IH; auto. discriminate. }
  destruct B as [B1 B2]. destruct (nest_snoc _ _ (n_lens i) B1) as [C1 C2].
  - rewrite B2. destruct i as [os|n]; cbn in *; auto.
  - split; [exact C1|]. rewrite C2, B2. destruct i; reflexivity.
Qed.
Lemma nkind_lens : forall is, map nkind (rev (map n_lens is)) = rev (map n_kind is).
Proof. intros is. rewrite map_rev, map_map. f_equal. apply map_ext. intros [os|n]; reflexivity. Qed.
Lemma nest_join : forall ks (cs : list (nat * list (option (list nat)))), Forall (fun c => nest (fst c) (snd c) /\ map nkind (snd c) = ks) cs -> nest (sumn (map fst cs)) (joinl ks (map snd cs)).
Proof.
  induction ks as [|k ks IH]; intros cs F; [exact Logic.I|]. cbn [joinl].
  assert (K : k = KItem \/ k = KList \/ cs = []) by (destruct cs as [|c cs]; [auto|]; inversion F as [|? ? [_ Q] _]; subst; destruct (snd c) as [|[x|] y]; cbn in Q; [discriminate| |]; injection Q as Q _; subst; auto).
  destruct K as [K|[K|K]]; subst.
  - cbn [nest]. specialize (IH (map (fun c => (fst c, tl (snd c))) cs)). rewrite !map_map in IH. cbn [fst snd] in IH. rewrite map_map. apply IH. apply Forall_map. eapply Forall_impl; [|exact F]. intros [n c] [C1 C2]. cbn [fst snd] in *. destruct c as [|[x|] c]; try discriminate. cbn in *. injection C2 as C2. auto.
  - cbn [nest]. assert (Q : sumn (flat_map (fun x : list (option (list nat)) => match x with Some l :: _ => l | _ => [] end) (map snd cs)) = sumn (map fst cs) /\ Forall (fun x => 0 < x) (flat_map (fun x : list (option (list nat)) => match x with Some l :: _ => l | _ => [] end) (map snd cs)) /\
      length (flat_map (fun x : list (option (list nat)) => match x with Some l :: _ => l | _ => [] end) (map snd cs)) = sumn (map (fun c : nat * list (option (list nat)) => match snd c with Some l :: _ => length l | _ => 0 end) cs)).
    { clear IH. induction F as [|[n c] cs [C1 C2] F [I1 [I2 I3]]]; [repeat split; constructor|]. cbn [map fst snd flat_map sumn] in *. destruct c as [|[x|] c]; try discriminate. cbn in C1. destruct C1 as [C1 [C3 C4]]. rewrite sumn_app, app_length. split; [lia|]. split; [apply Forall_app; auto|lia]. }
    destruct Q as [Q1 [Q2 Q3]]. split; [exact Q1|]. split; [exact Q2|]. rewrite Q3. specialize (IH (map (fun c : nat * list (option (list nat)) => (match snd c with Some l :: _ => length l | _ => 0 end, tl (snd c))) cs)). rewrite !map_map in IH. cbn [fst snd] in IH. rewrite map_map. apply IH. apply Forall_map. eapply Forall_impl; [|exact F]. intros [n c] [C1 C2]. cbn [fst snd] in *. destruct c as [|[x|] c]; try discriminate. cbn in *. injection C2 as C2. tauto.
  - cbn [map]. assert (E : forall q, nest 0 (joinl q [])) by (clear; induction q as [|[|d|] q IH]; cbn; auto). destruct k; cbn; try apply E. split; [reflexivity|]. split; [constructor|apply E].
Qed.
Lemma layers_join : forall ks (xs : list (list (option (list nat)))) (ys : list (list layer)), xs <> [] -> Forall (fun x => map nkind x = ks) xs -> Forall2 (Forall2 nlayer) xs ys ->
  Forall2 nlayer (joinl ks xs) (map (fun j => concat_layers (map (fun y => nth j y (LValidity None 0)) ys)) (seq 0 (length ks))).
Proof.
  induction ks as [|k ks IH]; intros xs ys N K F; [constructor|]. cbn [joinl length seq map]. constructor.
  - clear IH. assert (E : match k with KList => map (fun y => nth 0 y (LValidity None 0)) ys = map (fun x => layer_of (fst x) (snd x)) (map (fun x : list (option (list nat)) => (false, map Some (match x with Some l :: _ => l | _ => [] end))) xs) | _ => Forall (fun l => exists n, l = LValidity None n) (map (fun y => nth 0 y (LValidity None 0)) ys) end).
    { revert K. clear N. induction F as [|x y xs ys H F IH]; intros K; [destruct k; constructor|]. inversion K as [|? ? K1 K2]; subst. specialize (IH K2). destruct H as [|[ls|] l x y H1 H2]; [discriminate| |]; cbn in K1; injection K1 as <- K1; cbn [map nth nkind] in *.
      - cbn in H1. subst l. rewrite IH. reflexivity.
      - constructor; auto. }
    destruct k as [|d|]; cbn [nlayer].
    + revert E. generalize (map (fun y => nth 0 y (LValidity None 0)) ys). intros q E. unfold concat_layers. assert (X1 : existsb (fun l => is_some (l_valid l)) q = false) by (induction E as [|l q [n ->] E IHq]; [reflexivity|exact IHq]). rewrite X1. assert (X2 : exists n, last q (LValidity None 0) = LValidity None n) by (clear X1; induction E as [|l q [n ->] E IHq]; [eexists; reflexivity|]; destruct q; [eexists; reflexivity|exact IHq]). destruct X2 as [n ->]. eexists. reflexivity.
    + revert E. generalize (map (fun y => nth 0 y (LValidity None 0)) ys). intros q E. unfold concat_layers. assert (X1 : existsb (fun l => is_some (l_valid l)) q = false) by (induction E as [|l q [n ->] E IHq]; [reflexivity|exact IHq]). rewrite X1. assert (X2 : exists n, last q (LValidity None 0) = LValidity None n) by (clear X1; induction E as [|l q [n ->] E IHq]; [eexists; reflexivity|]; destruct q; [eexists; reflexivity|exact IHq]). destruct X2 as [n ->]. eexists. reflexivity.
    + rewrite E, concat_lists; [|destruct xs; [congruence|discriminate]|].
      * f_equal; [clear; induction xs as [|x xs IH]; [reflexivity|exact IH]|]. clear. induction xs as [|x xs IH]; [reflexivity|]. cbn [map flat_map snd]. rewrite map_app, IH. reflexivity.
      * apply Forall_map. apply Forall_forall. intros x _ _. cbn [snd]. apply Forall_map. apply Forall_forall. reflexivity.
  - rewrite <- seq_shift, map_map. rewrite (map_ext _ (fun j => concat_layers (map (fun y => nth j y (LValidity None 0)) (map (@tl _) ys)))).
    + apply IH; [destruct xs; [congruence|discriminate]| |].
      * apply Forall_map. eapply Forall_impl; [|exact K]. intros x Q. destruct x as [|z x]; [discriminate|]. cbn in *. congruence.
      * clear -F. induction F as [|x y xs ys H F IH]; constructor; auto. destruct H; [constructor|assumption].
    + intros j. f_equal. rewrite map_map. apply map_ext. intros [|l y]; [destruct j; reflexivity|reflexivity].
Qed.
Lemma join_kinds : forall ks xs, ~ (exists d, In (KFsl d) ks) -> map nkind (joinl ks xs) = ks.
Proof. induction ks as [|k ks IH]; intros xs N; [reflexivity|]. cbn [joinl map]. rewrite IH by (intros [d J]; apply N; exists d; right; exact J). f_equal. destruct k as [|d|]; [reflexivity| |reflexivity]. exfalso. apply N. exists d. left. reflexivity. Qed.
Lemma n_built : forall ks is, narray_ok ks is -> ks <> [] -> exists b n, build_n is = Some b /\ b_layers b = map n_layer is /\ b_len b = Some n /\ nest n (rev (map n_lens is)) /\ length is = length ks.
Proof.
  intros ks is [F [[b B] K]] N. destruct (build_n_from is new_builder b B) as [L1 [L2 L3]]. cbn [new_builder b_len b_layers app] in *. assert (LI : length is = length ks) by (rewrite <- K, rev_length, map_length; reflexivity).
  destruct is as [|i t]; [destruct ks; [congruence|discriminate]|]. exists b, (n_out (last (i :: t) i)). repeat split; auto. apply (nlinked_nest (i :: t) (n_in i)); auto; [split; auto|discriminate].
Qed.
Theorem nested_exact : forall ks p, p <> [] -> In KList ks -> Forall (narray_ok ks) p ->
  exists l gs, write_nested p = Some l /\ read_layers ks [new_unraveler l] = Some gs /\ Forall2 got_is (page_lens ks p) gs.
Proof.
  intros ks p NP KL F. assert (NK : ks <> []) by (intros ->; destruct KL). set (ns := page_lens ks p).
  assert (BD : exists bs nn, sequence_opt (map build_n p) = Some bs /\ map b_layers bs = map (map n_layer) p /\ sequence_opt (map b_len bs) = Some nn /\ Forall2 (fun is n => nest n (rev (map n_lens is)) /\ map nkind (rev (map n_lens is)) = ks /\ length is = length ks) p nn).
  { clear NP KL ns. induction F as [|is p H F [bs [nn [I1 [I2 [I3 I4]]]]]]; [exists [], []; repeat split; constructor|]. destruct (n_built ks is H NK) as [b [n [B1 [B2 [B3 [B4 B5]]]]]]. exists (b :: bs), (n :: nn). cbn [map sequence_opt]. rewrite B1, I1, B2, I2, B3, I3. repeat split; auto. constructor; auto. split; [exact B4|]. split; [rewrite nkind_lens; apply H|exact B5]. }
  destruct BD as [bs [nn [S1 [S2 [S3 S4]]]]]. unfold write_nested. rewrite S1. cbn [obind].
  assert (NE : nest (sumn nn) ns).
  { unfold ns, page_lens. assert (Q : nest (sumn (map fst (combine nn (map (fun is => rev (map n_lens is)) p)))) (joinl ks (map snd (combine nn (map (fun is => rev (map n_lens is)) p))))).
    { apply nest_join. clear -S4. induction S4 as [|is n p nn [H1 [H2 _]] S4 IH]; constructor; auto. }
    replace (map fst (combine nn (map (fun is => rev (map n_lens is)) p))) with nn in Q by (clear -S4; induction S4 as [|is n p nn _ S4 IH]; [reflexivity|]; cbn; rewrite <- IH; reflexivity).
    replace (map snd (combine nn (map (fun is => rev (map n_lens is)) p))) with (map (fun is => rev (map n_lens is)) p) in Q by (clear -S4; induction S4 as [|is n p nn _ S4 IH]; [reflexivity|]; cbn; rewrite <- IH; reflexivity). exact Q. }
  assert (SM : forall i, i < length ks -> sequence_opt (map (fun b => nth_error (b_layers b) i) bs) = Some (map (fun is => nth i (map n_layer is) (LValidity None 0)) p)).
  { intros i Hi. rewrite <- (map_map b_layers (fun l => nth_error l i)), S2, map_map. apply sequence_map_some. intros is J. apply nth_error_nth'. rewrite map_length. assert (Q : length is = length ks) by (clear -S4 J; induction S4 as [|a n p nn [_ [_ H]] S4 IH]; [destruct J|]; destruct J as [<-|J]; auto). lia. }
  set (f := fun i => concat_layers (map (fun is => nth i (map n_layer is) (LValidity None 0)) p)).
  assert (LY : sequence_opt (map (fun i => omap concat_layers (sequence_opt (map (fun b => nth_error (b_layers b) i) bs))) (seq 0 (length ks))) = Some (map f (seq 0 (length ks)))).
  { apply sequence_map_some. intros i J. apply in_seq in J. rewrite SM by lia. reflexivity. }
  assert (FL : Forall2 nlayer ns (rev (map f (seq 0 (length ks))))).
  { rewrite rev_map_seq. unfold ns, page_lens.
    assert (Q := layers_join ks (map (fun is => rev (map n_lens is)) p) (map (fun is => rev (map n_layer is)) p)).
    rewrite (map_ext_in _ (fun j => concat_layers (map (fun y => nth j y (LValidity None 0)) (map (fun is => rev (map n_layer is)) p)))).
    - apply Q; [destruct p; [congruence|discriminate]| |].
      + apply Forall_map. apply Forall_forall. intros is J. rewrite Forall_forall in F. rewrite nkind_lens. apply (F is J).
      + clear. induction p as [|is p IH]; constructor; auto. rewrite <- !map_rev. generalize (rev is). intros q. induction q as [|[os|n] q IHq]; constructor; auto; [reflexivity|exists n; reflexivity].
    - intros j J. apply in_seq in J. unfold f. f_equal. rewrite map_map. apply map_ext_in. intros is Ji. assert (LI : length is = length ks) by (clear -S4 Ji; induction S4 as [|a n p nn [_ [_ H]] S4 IH]; [destruct Ji|]; destruct Ji as [<-|Ji]; auto). rewrite rev_nth by (rewrite map_length; lia). rewrite map_length. f_equal. lia. }
  assert (NF : ~ (exists d, In (KFsl d) ks)).
  { intros [d J]. destruct p as [|is p]; [congruence|]. inversion F as [|? ? [_ [_ K]] _]; subst. apply in_rev in J. apply in_map_iff in J as [[os|n] [Q _]]; discriminate. }
  assert (KN : map nkind ns = ks) by (apply join_kinds; exact NF).
  assert (EX : existsb is_some ns = true).
  { rewrite <- KN in KL. apply in_map_iff in KL as [[x|] [Q J]]; [|discriminate]. apply existsb_exists. exists (Some x). auto. }
  assert (B0 : exists b0 bt, bs = b0 :: bt /\ length (b_layers b0) = length ks /\ forallb b_empty bs = false /\ existsb b_offsets bs = true /\ existsb b_nulls bs = false).
  { destruct p as [|is p]; [congruence|]. destruct bs as [|b0 bt]; [discriminate|]. exists b0, bt. split; [reflexivity|]. injection S2 as S2 S2t. inversion S4 as [|? n ? nn' [_ [HK HL]] _]; subst nn. split; [rewrite S2, map_length; exact HL|].
    assert (HI : exists os, In (NList os) is) by (rewrite nkind_lens in HK; rewrite <- HK in KL; apply in_rev in KL; apply in_map_iff in KL as [[os|m] [Q J]]; [eauto|discriminate]). destruct HI as [os HI].
    split; [|split].
    - cbn [forallb]. apply andb_false_iff. left. unfold b_empty. rewrite S2. destruct (forallb _ (map n_layer is)) eqn:Q; [|reflexivity]. rewrite forallb_forall in Q. specialize (Q _ (in_map n_layer _ _ HI)). discriminate.
    - cbn [existsb]. apply orb_true_iff. left. unfold b_offsets. rewrite S2. apply existsb_exists. exists (n_layer (NList os)). split; [apply in_map; exact HI|reflexivity].
    - assert (Q : forall bq pq, map b_layers bq = map (map n_layer) pq -> existsb b_nulls bq = false).
      { clear. induction bq as [|b bq IH]; intros [|q pq] E; try discriminate; [reflexivity|]. cbn in E. injection E as E1 E2. cbn [existsb]. rewrite (IH pq E2), orb_false_r. unfold b_nulls. rewrite E1. clear. induction q as [|[os|n] q IH]; [reflexivity|exact IH|exact IH]. }
      apply (Q (b0 :: bt) (is :: p)). cbn [map]. congruence. }
  destruct B0 as [b0 [bt [EB [LB [B1 [B2 B3]]]]]]. unfold serialize. rewrite EB. rewrite <- EB. rewrite B1, S3. cbn [obind]. rewrite LB, LY. cbn [obind]. rewrite B2, B3. set (c0 := new_ctx (sumn nn) false true).
  destruct (record_nest ns _ FL c0 (seq 0 (sumn nn))) as [c [-> [C1 [C2 [C3 [C4 [C5 [C6 [C7 C8]]]]]]]]].
  - cbn. now rewrite seq_length.
  - apply seq_NoDup.
  - intros x J. apply in_seq in J. cbn. rewrite repeat_length. lia.
  - rewrite seq_length. exact NE.
  - reflexivity.
  - reflexivity.
  - cbn. lia.
  - specialize (C5 EX). cbn [obind]. rewrite C1, C2, C3. cbn [c0 new_ctx c_nulls c_meaning app collapse_specials]. cbn [c0 new_ctx c_cur_rep] in C5. rewrite (proj2 (Nat.ltb_lt _ _) C5).
    assert (RP : c_rep c = reps (sumn nn) ns).
    { cbn [c0 new_ctx c_rep] in C6. rewrite repeat_length in C6. rewrite <- (seq_map_nth nat 0 (c_rep c)), C6. rewrite <- (seq_map_nth nat 0 (reps (sumn nn) ns)), (reps_length ns _ NE). apply map_ext_in. intros i J. apply in_seq in J. rewrite seq_length in C7. specialize (C7 i ltac:(lia)). rewrite seq_nth in C7 by lia. cbn [Nat.add] in C7. rewrite C7. cbn zeta. cbn [c0 new_ctx c_rep c_cur_rep]. rewrite nth_repeat. destruct (Nat.eqb_spec (nth i (reps (sumn nn) ns) 0) 0); lia. }
    eexists. exists (map ngot ns). split; [reflexivity|]. split.
    + rewrite <- KN at 1. apply (read_nest ns (sumn nn)); [exact NE|cbn; rewrite RP; reflexivity|reflexivity|]. intros j J. reflexivity.
    + clear. induction ns as [|[ls|] t IH]; cbn [map]; constructor; auto; cbn; [|reflexivity]. exists (0 :: sums 0 (map Some ls)). split; [reflexivity|]. rewrite lens_sums, map_map. apply map_id.
Qed.

(* ---- instances and counterexamples ---- *)
(* two arrays of lists with nulls and empty lists, of structs with nulls *)
Definition ex_lists : list larray :=
  [{| la_above := 1; la_offsets := [2; 4; 4; 7; 8]; la_valid := Some [true; true; false; true]; la_below := [IItem (Some [true; false; true]) 3; IItem (Some [false; true; true]) 3] |};
   {| la_above := 1; la_offsets := [0; 2]; la_valid := None; la_below := [IItem None 2; IItem (Some [false; true]) 2] |}].
Ltac arrs := repeat (apply Forall_cons; [split; [reflexivity|split; [first [reflexivity|exact Logic.I]|split; [split; [repeat (apply Forall_cons; [split; cbn; auto|]); apply Forall_nil|split; [eexists; reflexivity|reflexivity]]|eexists; reflexivity]]]|]); apply Forall_nil.
Example page_lists_met : page_lists_ok 1 2 ex_lists /\ starts_seen 2 ex_lists /\ flat_map la_lists ex_lists = [Some 2; Some 0; None; Some 1; Some 2] /\ page_nulls (repeat KItem 2) (map la_below ex_lists) = [Some 0; Some 1; None; Some 0; None].
Proof. split; [|split; [left; reflexivity|split; reflexivity]]. split; [discriminate|]. split; [lia|]. split; [arrs|left; cbn; lia]. Qed.
(* three levels of lists with a struct in between *)
Definition ex_nested : list (list ninput) := [[NList [0; 1; 3]; NItem 3; NList [1; 3; 4; 6]; NList [0; 1; 3; 4; 6; 7]; NItem 7]; [NList [0; 2]; NItem 2; NList [0; 1; 2]; NList [0; 2; 3]; NItem 3]].
Ltac nests := repeat (apply Forall_cons; [split; [repeat (apply Forall_cons; [first [exact Logic.I|cbn; repeat constructor]|]); apply Forall_nil|split; [eexists; reflexivity|reflexivity]]|]); apply Forall_nil.
Example nested_met : ex_nested <> [] /\ Forall (narray_ok [KItem; KList; KList; KItem; KList]) ex_nested /\ page_lens [KItem; KList; KList; KItem; KList] ex_nested = [None; Some [1; 2; 1; 2; 1; 2; 1]; Some [2; 1; 2; 1; 1]; None; Some [1; 2; 2]].
Proof. split; [discriminate|]. split; [nests|reflexivity]. Qed.
Ltac parts := repeat (match goal with |- _ /\ _ => split end); vm_compute; reflexivity.
(* a list of lists whose last list is empty cannot be written *)
Theorem nested_empty_panics_refuted : exists is b, build_n is = Some b /\ n_lens (nth 0 is (NItem 0)) = Some [1; 0] /\ write_nested [is] = None.
Proof. exists [NList [0; 1; 1]; NList [0; 1]; NItem 1]. eexists. parts. Qed.
(* two empty lists in one list make the list before it longer and itself shorter *)
Theorem nested_empty_moved_refuted : exists is l g1 g2 os, write_nested [is] = Some l /\ n_lens (nth 0 is (NItem 0)) = Some [0; 1; 3] /\ read_layers [KItem; KList; KList] [new_unraveler l] = Some [g1; g2; GList os None] /\ lens os = [0; 2; 2].
Proof. exists [NList [0; 0; 1; 4]; NList [0; 1; 1; 1; 2]; NItem 2]. do 4 eexists. parts. Qed.
(* lists of lists of two pages read together: two lists per list become one number *)
Theorem nested_pages_refuted : exists p1 p2 l1 l2 g1 g2 os, Forall (narray_ok [KItem; KList; KList]) p1 /\ Forall (narray_ok [KItem; KList; KList]) p2 /\ write_nested p1 = Some l1 /\ write_nested p2 = Some l2 /\
  page_lens [KItem; KList; KList] (p1 ++ p2) = [None; Some [1; 1; 1; 3]; Some [3; 1]] /\ read_layers [KItem; KList; KList] [new_unraveler l1; new_unraveler l2] = Some [g1; g2; GList os None] /\ lens os = [3; 3].
Proof. exists [[NList [0; 3]; NList [0; 1; 2; 3]; NItem 3]], [[NList [0; 1]; NList [0; 3]; NItem 3]]. do 5 eexists. split; [nests|]. split; [nests|]. parts. Qed.
(* a list without nulls is lost if its first item is null and no list is empty *)
Theorem null_start_refuted : exists p l g os, page_lists_ok 0 1 p /\ write_lists p = Some l /\ flat_map la_lists p = [Some 2] /\ read_layers [KItem; KList] [new_unraveler l] = Some [g; GList os None] /\ lists_of os None = [].
Proof.
  exists [{| la_above := 0; la_offsets := [0; 2]; la_valid := None; la_below := [IItem (Some [false; true]) 2] |}]. do 3 eexists. split; [|parts].
  split; [discriminate|]. split; [lia|]. split; [arrs|left; cbn; lia].
Qed.
(* a page of empty lists cannot be written if the array of items has an (empty) validity *)
Theorem all_empty_refuted : exists p, Forall (larray_ok 0 1) p /\ p <> [] /\ flat_map la_lists p = [Some 0] /\ write_lists p = None.
Proof.
  exists [{| la_above := 0; la_offsets := [0; 0]; la_valid := None; la_below := [IItem (Some []) 0] |}]. split; [|split; [discriminate|split; reflexivity]]. arrs.
Qed.
(* a null struct above a list is read as a valid struct *)
Theorem null_above_refuted : exists b l g1 g2, obind (add_validity (Some [true; false; true]) 3 new_builder) (fun b => obind (add_offsets [0; 1; 1; 2] (Some [true; false; true]) b) (add_validity (Some [true; true]) 2)) = Some b /\
  serialize [b] = Some l /\ read_layers [KItem; KList; KItem] [new_unraveler l] = Some [g1; g2; GValid (Some [true; true; true])].
Proof. do 4 eexists. parts. Qed.
