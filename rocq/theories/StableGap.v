(* When compaction keeps the stable ids of a fragment, and when it cannot (C121). *)
From Coq Require Import List Arith NArith Bool Lia ZifyBool ZifyN ZifyNat Permutation.
From Verif Require Import Lib RowIdsModel RowIdsSpec EncArrProofs BitmapProofs SegProofs SeqProofs RechunkProofs StableModel StableProofs.
Import ListNotations.
Local Open Scope nat_scope.

(* ---- masking one segment ---- *)
Lemma split_all : forall ps n, (forall p, In p ps -> p < n) -> split_below n 0 ps = Some (ps, []).
Proof.
  induction ps as [|p t IH]; intros n H; auto. cbn [split_below]. assert (p < n) by (apply H; left; auto).
  replace (n <=? p) with false by lia. cbn [Nat.ltb Nat.leb]. rewrite IH by (intros; apply H; right; auto). cbn. now rewrite Nat.sub_0_r.
Qed.
Lemma mask_single : forall s ps s', seg_wf s -> (forall p, In p ps -> p < length (seg_iter s)) -> seg_mask s ps = Some s' ->
  seq_mask [s] ps = Some (if seg_len s' =? 0 then [] else [s']).
Proof.
  intros s ps s' W H E. unfold seq_mask. cbn [mask_loop]. rewrite Nat.add_0_l, split_all by (rewrite seg_len_iter; auto). cbn [obind].
  assert (X : match ps with [] => Some s | _ => seg_mask s ps end = Some s') by (destruct ps; auto; rewrite <- E; reflexivity).
  rewrite X. cbn [obind omap filter]. destruct (seg_len s' =? 0); reflexivity.
Qed.
(* what seg_mask gives to from_stats *)
Lemma mask_stats : forall s ps s', seg_wf s -> sincn ps -> ps <> [] -> (forall p, In p ps -> p < length (seg_iter s)) -> length ps < length (seg_iter s) ->
  seg_mask s ps = Some s' -> exists mn mx, let l := wpos 0 ps (seg_iter s) in
    In mn l /\ In mx l /\ length l = length (seg_iter s) - length ps /\
    from_stats {| st_min := mn; st_max := mx; st_count := N.of_nat (length l); st_sorted := match s with Arr _ => false | _ => true end |} l = Some s'.
Proof.
  intros s ps s' Hw Hs Hne Hp Hl H. unfold seg_mask in H. rewrite (seg_len_iter s Hw) in H. set (l := seg_iter s) in *.
  destruct (wpos_length l 0 ps Hs) as [HL1 HL2]; [intros p Hin; specialize (Hp _ Hin); lia|].
  destruct ps as [|p0 pt] eqn:Eps; [congruence|]. rewrite <- Eps in *.
  replace (length ps =? length l) with false in H by lia. replace (length l <? length ps) with false in H by lia.
  destruct (first_unmasked_spec (length l) ps Hs Hne ltac:(lia)) as [i0 [F1 [F2 [F3 F4]]]].
  destruct (last_unmasked_spec (length l) ps Hs Hne ltac:(lia) Hp) as [i1 [G1 [G2 [G3 G4]]]].
  rewrite F1, G1 in H. cbn [obind] in H. rewrite !seg_get_iter in H by auto. fold l in H.
  destruct (nth_error l i0) as [mn|] eqn:Emn; [|apply nth_error_None in Emn; lia].
  destruct (nth_error l i1) as [mx|] eqn:Emx; [|apply nth_error_None in Emx; lia].
  cbn [obind] in H. rewrite drop_positions_spec in H by (auto; intros; lia).
  exists mn, mx. cbv zeta. split; [apply wpos_In; exists i0; auto|]. split; [apply wpos_In; exists i1; auto|]. split; auto. rewrite HL1. exact H.
Qed.

(* ---- fragments whose ids survive ---- *)
Lemma range_In : forall x y v, In v (range_list x y) <-> (x <= v < y)%N.
Proof. intros. unfold range_list. rewrite nrange_In. lia. Qed.
Lemma range_len : forall x y, length (range_list x y) = N.to_nat (y - x).
Proof. intros. unfold range_list. apply nrange_length. Qed.
Lemma contiguous_plain : forall s ps x y, seg_wf s -> hole_free s -> sincn ps -> (forall p, In p ps -> p < length (seg_iter s)) ->
  wpos 0 ps (seg_iter s) = range_list x y -> forall q, seq_mask [s] ps = Some q -> Forall plain_seg q.
Proof.
  intros s ps x y W HF S P C q H. destruct (seg_mask_spec s ps W S P) as (s' & E & W' & I). rewrite (mask_single s ps s' W P E) in H. injection H as <-.
  destruct (seg_len s' =? 0) eqn:E0; [constructor|]. rewrite (seg_len_iter s' W') in E0. constructor; [|constructor].
  assert (NE : seg_iter s' <> []) by (intros X; rewrite X in E0; discriminate). split; auto. split; auto.
  destruct (Nat.eq_dec (length ps) 0) as [Z|Z].
  { destruct ps; [|discriminate]. cbn in E. injection E as <-. exact HF. }
  assert (Hne : ps <> []) by (intros X; subst; cbn in Z; lia).
  destruct (wpos_length (seg_iter s) 0 ps S) as [HL1 HL2]; [intros p Hin; specialize (P _ Hin); lia|].
  assert (HL : length ps < length (seg_iter s)).
  { assert (length (seg_iter s') <> 0) by lia. rewrite I in H. lia. }
  destruct (mask_stats s ps s' W S Hne P HL E) as (mn & mx & M1 & M2 & M3 & M4). cbv zeta in *. rewrite C in *.
  unfold from_stats in M4. cbn [st_sorted st_count st_min st_max] in M4.
  destruct (match s with Arr _ => false | _ => true end); [|injection M4 as <-; exact Logic.I].
  apply range_In in M1, M2. unfold n_holes in M4. cbn [st_count st_min st_max] in M4. rewrite range_len in *.
  destruct (N.of_nat (N.to_nat (y - x)) =? 0)%N; [cbn in M4; injection M4 as <-; exact Logic.I|].
  destruct (mx <? mn)%N; [discriminate|]. destruct (two64 <=? mx - mn + 1)%N; [discriminate|].
  destruct (mx - mn + 1 <? N.of_nat (N.to_nat (y - x)))%N eqn:E1; [discriminate|]. cbn [obind] in M4.
  replace (mx - mn + 1 - N.of_nat (N.to_nat (y - x)) =? 0)%N with true in M4 by lia.
  destruct (checked_succ mx); [|discriminate]. injection M4 as <-. exact Logic.I.
Qed.
Lemma array_plain : forall arr ps, seg_wf (Arr arr) -> sincn ps -> (forall p, In p ps -> p < length (ea_iter arr)) ->
  forall q, seq_mask [Arr arr] ps = Some q -> Forall plain_seg q.
Proof.
  intros arr ps W S P q H. destruct (seg_mask_spec (Arr arr) ps W S P) as (s' & E & W' & I). rewrite (mask_single _ ps s' W P E) in H. injection H as <-.
  destruct (seg_len s' =? 0) eqn:E0; [constructor|]. rewrite (seg_len_iter s' W') in E0. constructor; [|constructor].
  assert (NE : seg_iter s' <> []) by (intros X; rewrite X in E0; discriminate). split; auto. split; auto.
  destruct (Nat.eq_dec (length ps) 0) as [Z|Z].
  { destruct ps; [|discriminate]. cbn in E. injection E as <-. exact Logic.I. }
  assert (Hne : ps <> []) by (intros X; subst; cbn in Z; lia).
  destruct (wpos_length (seg_iter (Arr arr)) 0 ps S) as [HL1 HL2]; [intros p Hin; specialize (P _ Hin); cbn [seg_iter]; lia|].
  assert (HL : length ps < length (seg_iter (Arr arr))).
  { assert (length (seg_iter s') <> 0) by lia. rewrite I in H. lia. }
  destruct (mask_stats _ ps s' W S Hne P HL E) as (mn & mx & M1 & M2 & M3 & M4). cbv zeta in *.
  cbn [from_stats st_sorted] in M4. injection M4 as <-. exact Logic.I.
Qed.

(* ---- a segment with holes: its ids are lost ---- *)
Definition range_ok (s : segment) : Prop := match s with Range a b => (a <= b)%N | _ => True end.
Lemma extend_ok : forall q p, Forall range_ok q -> range_ok p -> Forall range_ok (seq_extend q [p]) /\ seq_iter (seq_extend q [p]) = seq_iter q ++ seg_iter p.
Proof.
  intros q p Hq Hp.
  assert (D : Forall range_ok (q ++ [p]) /\ seq_iter (q ++ [p]) = seq_iter q ++ seg_iter p).
  { split; [apply Forall_app; auto|]. unfold seq_iter. rewrite flat_map_app. cbn. now rewrite app_nil_r. }
  unfold seq_extend. destruct (rev q) as [|[a1 b1| | | |] rq] eqn:E; auto. destruct p as [a2 b2| | | |]; auto.
  destruct (b1 =? a2)%N eqn:Eb; auto. apply N.eqb_eq in Eb. subst a2. clear D.
  assert (Eq : q = rev rq ++ [Range a1 b1]) by (rewrite <- (rev_involutive q), E; reflexivity).
  subst q. clear E. rewrite Forall_app in Hq. destruct Hq as [H1 H2]. inversion H2; subst. cbn in H3, Hp. split.
  - apply Forall_app. split; auto. constructor; auto. cbn. lia.
  - unfold seq_iter. rewrite !flat_map_app. cbn [flat_map seg_iter]. rewrite !app_nil_r. rewrite <- (range_list_app a1 b1 b2) by lia. now rewrite !app_assoc.
Qed.
Definition pieces_in (P : N -> Prop) (s : segment) : Prop := forall off len p, off + len <= seg_len s -> seg_slice s off len = Some p -> range_ok p /\ Forall P (seg_iter p).
Definition at_one (s : segment) (segs : list segment) (off : nat) : Prop := (segs = [s] /\ off < seg_len s) \/ segs = [].
Lemma one_pieces : forall P s, pieces_in P s -> forall fuel segs off rem acc c segs' off', at_one s segs off -> Forall range_ok acc -> Forall P (seq_iter acc) ->
  rechunk_one fuel segs off rem acc = RcOk (c, segs', off') -> at_one s segs' off' /\ Forall range_ok c /\ Forall P (seq_iter c).
Proof.
  intros P s HP. induction fuel as [|fuel IH]; intros segs off rem acc c segs' off' A R F H; cbn [rechunk_one] in H.
  - destruct (rem =? 0); [injection H as <- <- <-; auto|discriminate].
  - destruct (rem =? 0) eqn:E0; [injection H as <- <- <-; auto|]. destruct A as [[-> A]| -> ]; [|cbn in H; destruct rem; discriminate].
    destruct (rem <? seg_len s - off) eqn:E1.
    + destruct (seg_slice s off rem) as [p|] eqn:ES; [|discriminate]. destruct (HP off rem p ltac:(lia) ES) as [Q1 Q2]. destruct (extend_ok acc p R Q1) as [X1 X2].
      eapply IH; [| | |exact H]; [left; split; auto; lia|auto|]. rewrite X2. apply Forall_app; auto.
    + replace (seg_len s - off =? 0) with false in H by lia.
      destruct (seg_slice s off (seg_len s - off)) as [p|] eqn:ES; [|discriminate]. destruct (HP off (seg_len s - off) p ltac:(lia) ES) as [Q1 Q2]. destruct (extend_ok acc p R Q1) as [X1 X2].
      eapply IH; [| | |exact H]; [right; auto|auto|]. rewrite X2. apply Forall_app; auto.
Qed.
Lemma loop_pieces : forall P s, pieces_in P s -> forall sizes segs off cs, at_one s segs off -> rechunk_loop segs off sizes = RcOk cs -> Forall P (concat (map seq_iter cs)).
Proof.
  intros P s HP. induction sizes as [|n ns IH]; intros segs off cs A H; cbn [rechunk_loop] in H.
  - destruct segs; [injection H as <-; constructor|discriminate].
  - destruct (rechunk_one (S (S (length segs))) segs off n []) as [[[c segs'] off']| |] eqn:E; try discriminate.
    destruct (rechunk_loop segs' off' ns) as [cs'| |] eqn:E2; try discriminate. injection H as <-.
    destruct (one_pieces P s HP _ _ _ _ _ _ _ _ A (Forall_nil _) (Forall_nil _) E) as (A' & _ & F). cbn [map concat]. apply Forall_app. split; eauto.
Qed.
Lemma bsearch_bound : forall l v r, bsearch_correct l v r -> bs_either r <= length l.
Proof.
  intros l v r H. destruct r as [i|i]; cbn in *.
  - assert (X : nth_error l i <> None) by congruence. apply nth_error_Some in X. lia.
  - lia.
Qed.

Lemma bmap_pieces : forall a b bm, seg_wf (BMap a b bm) -> seg_len (BMap a b bm) < N.to_nat (b - a) -> pieces_in (fun v => v <> (b - 1)%N) (BMap a b bm).
Proof.
  intros a b bm W L off len p H E. cbn [seg_slice] in E. cbn [seg_wf] in W.
  assert (B : forall v, In v (range_list (a + N.of_nat off) (a + N.of_nat off + N.of_nat len)) -> v <> (b - 1)%N) by (intros v Hv; apply range_In in Hv; lia).
  destruct (bms_count_ones bm off len =? len).
  - injection E as <-. split; [cbn; lia|]. apply Forall_forall. exact B.
  - destruct (bm_from_slice bm off len); [|discriminate]. injection E as <-. split; [exact Logic.I|]. apply Forall_forall. intros v Hv. cbn [seg_iter] in Hv. apply filter_In in Hv. apply B. tauto.
Qed.
Lemma holes_pieces : forall a b h, seg_wf (Holes a b h) -> pieces_in (fun v => (v < N.of_nat (length (ea_iter h)))%N) (Holes a b h).
Proof.
  intros a b h (W1 & W2 & W3 & W4) off len p H E. cbn [seg_slice] in E.
  set (st := bs_either (ea_bsearch h (a + N.of_nat off))) in *. set (en := bs_either (ea_bsearch h (a + N.of_nat off + N.of_nat len))) in *.
  assert (EN : en <= length (ea_iter h)) by (eapply bsearch_bound, ea_bsearch_ok; auto; now apply sinc_ninc).
  assert (B : forall v, In v (range_list (N.of_nat st) (N.of_nat en)) -> (v < N.of_nat (length (ea_iter h)))%N) by (intros v Hv; apply range_In in Hv; lia).
  destruct (en <? st) eqn:EL; [discriminate|]. destruct (en - st =? 0).
  - injection E as <-. split; [cbn; lia|]. apply Forall_forall. exact B.
  - destruct (ea_slice h st (en - st)); [|discriminate]. injection E as <-. split; [exact Logic.I|]. apply Forall_forall. intros v Hv. cbn [seg_iter] in Hv. apply filter_In in Hv. apply B. tauto.
Qed.
(* what is left of a fragment with ids a .. b - 1 has a gap, but less than a third of the
   ids between its first and its last are gone: no compaction keeps them *)
Lemma pigeon : forall (l : list N) n, NoDup l -> Forall (fun v => (v < N.of_nat n)%N) l -> length l <= n.
Proof.
  intros l n ND F. rewrite <- (nrange_length n 0%N). apply NoDup_incl_length; auto. intros v Hv. rewrite Forall_forall in F. apply nrange_In. specialize (F v Hv). lia.
Qed.
Lemma gap_lost : forall a b ps sizes q cs lo hi, seg_wf (Range a b) -> sincn ps -> (forall p, In p ps -> p < N.to_nat (b - a)) ->
  let l := without_positions ps (range_list a b) in
  In lo l -> In hi l -> (forall v, In v l -> lo <= v <= hi)%N -> length l < N.to_nat (hi - lo + 1) -> 2 * (N.to_nat (hi - lo + 1) - length l) <= length l ->
  seq_mask [Range a b] ps = Some q -> rechunk_sequences [q] sizes = RcOk cs -> concat (map seq_iter cs) <> l.
Proof.
  intros a b ps sizes q cs lo hi W S P l Hlo Hhi Hall Hgap Hdense HM HR HC.
  assert (P' : forall p, In p ps -> p < length (seg_iter (Range a b))) by (intros; cbn [seg_iter]; rewrite range_len; auto).
  destruct (seg_mask_spec (Range a b) ps W S P') as (s' & E & W' & I). change (wpos 0 ps (seg_iter (Range a b))) with l in I.
  rewrite (mask_single _ ps s' W P' E) in HM. injection HM as <-.
  assert (LL : length l <> 0) by (destruct l; [destruct Hlo|discriminate]).
  assert (SL : seg_len s' = length l) by (rewrite (seg_len_iter s' W'), I; auto). rewrite SL in HR. replace (length l =? 0) with false in HR by lia.
  unfold rechunk_sequences in HR. cbn [concat app] in HR.
  assert (A1 : at_one s' [s'] 0) by (left; split; auto; lia).
  destruct (wpos_length (seg_iter (Range a b)) 0 ps S) as [HL1 HL2]; [intros p Hin; specialize (P' _ Hin); lia|]. change (wpos 0 ps (seg_iter (Range a b))) with l in HL1.
  assert (SIN : sinc l) by (change l with (wpos 0 ps (seg_iter (Range a b))); apply sinc_wpos; apply seg_iter_sinc; auto; intros ? X; discriminate X).
  assert (Hne : ps <> []).
  { intros ->. cbn in E. injection E as <-. cbn [seg_iter] in I. rewrite <- I in *. apply range_In in Hlo, Hhi. rewrite range_len in Hgap. lia. }
  assert (HLT : length ps < length (seg_iter (Range a b))) by lia.
  destruct (mask_stats (Range a b) ps s' W S Hne P' HLT E) as (mn & mx & M1 & M2 & M3 & M4). cbv zeta in *. change (wpos 0 ps (seg_iter (Range a b))) with l in *.
  unfold from_stats in M4. cbn [st_sorted st_count st_min st_max] in M4. unfold n_holes in M4. cbn [st_count st_min st_max] in M4.
  replace (N.of_nat (length l) =? 0)%N with false in M4 by lia.
  assert (B1 := Hall _ M1). assert (B2 := Hall _ M2).
  destruct (mx <? mn)%N eqn:E1; [discriminate|]. destruct (two64 <=? mx - mn + 1)%N; [discriminate|].
  destruct (mx - mn + 1 <? N.of_nat (length l))%N eqn:E2; [discriminate|]. cbn [obind] in M4.
  destruct (mx - mn + 1 - N.of_nat (length l) =? 0)%N eqn:E3.
  { (* no holes: then l is contiguous *)
    destruct (checked_succ mx) as [e|] eqn:EC; [|discriminate]. injection M4 as <-. cbn [seg_iter] in I. rewrite <- I in *. apply range_In in Hlo, Hhi. rewrite range_len in Hgap. lia. }
  unfold seq_sizes in M4. cbn [st_count st_min st_max] in M4.
  set (nh := (mx - mn + 1 - N.of_nat (length l))%N) in *. set (sl := ((mx - mn + 1 + 7) / 8)%N) in *.
  assert (NH : (2 * nh <= N.of_nat (length l))%N) by lia.
  destruct (N.min (24 + 4 * nh) (N.min (24 + sl) (24 + 2 * N.of_nat (length l))) =? 24 + 4 * nh)%N eqn:E4.
  - destruct (checked_succ mx) as [e|] eqn:EC; [|discriminate]. cbn [obind] in M4.
    remember (ea_from (sortN (holes_in (nrange mn (N.to_nat (mx - mn + 1))) l))) as h eqn:Eh. injection M4 as <-.
    assert (HH : length (ea_iter h) = N.to_nat nh).
    { assert (X := SL). cbn [seg_len] in X. unfold checked_succ in EC. destruct (mx + 1 <? two64)%N; [|discriminate]. injection EC as <-. lia. }
    pose proof (loop_pieces _ _ (holes_pieces mn e h W') _ _ _ _ A1 HR) as F. rewrite HC in F.
    pose proof (pigeon l _ (sinc_NoDup _ SIN) F). lia.
  - destruct (N.min (24 + 4 * nh) (N.min (24 + sl) (24 + 2 * N.of_nat (length l))) =? 24 + sl)%N eqn:E5; [|exfalso; lia].
    destruct (checked_succ mx) as [e|] eqn:EC; [|discriminate]. cbn [obind] in M4.
    destruct (bm_clear_all _ _) as [bm|]; [|discriminate]. cbn [omap] in M4. injection M4 as <-.
    unfold checked_succ in EC. destruct (mx + 1 <? two64)%N; [|discriminate]. injection EC as <-.
    pose proof (loop_pieces _ _ (bmap_pieces mn (mx + 1)%N bm W' ltac:(rewrite SL; lia)) _ _ _ _ A1 HR) as F. rewrite HC in F. rewrite Forall_forall in F.
    apply (F mx M2). lia.
Qed.
Theorem gap_loses_ids : forall {V} (f : ofrag V) a b ps sizes seqs lo hi, o_seq f = [Range a b] -> o_del f = Some ps -> frag_ok f ->
  let l := map fst (live_rows f) in
  In lo l -> In hi l -> (forall v, In v l -> lo <= v <= hi)%N -> length l < N.to_nat (hi - lo + 1) -> 2 * (N.to_nat (hi - lo + 1) - length l) <= length l ->
  rechunk_stable (loaded_pairs [f]) [f] sizes = Some (RcOk seqs) -> concat (map seq_iter seqs) <> l.
Proof.
  intros V f a b ps sizes seqs lo hi ES ED (W & L & S & P) l Hlo Hhi Hall Hg Hd H.
  assert (EL : l = without_positions ps (range_list a b)).
  { unfold l, live_rows, deleted. rewrite ED, live_app_combine by auto. rewrite ES. cbn [seq_iter flat_map seg_iter]. rewrite app_nil_r.
    assert (X : length (live ps (range_list a b)) = length (live ps (o_rows f))).
    { rewrite ES in L. cbn [seq_iter flat_map seg_iter] in L. rewrite app_nil_r in L. unfold live. rewrite !map_length. revert L. generalize (range_list a b) (o_rows f) 0. clear.
      induction l as [|x l IH]; intros [|y m] k H; try discriminate; auto. cbn [length seq combine filter fst] in *. destruct (negb (memb k ps)); cbn [length]; [f_equal|]; apply IH; lia. }
    change (without_positions ps (range_list a b)) with (live ps (range_list a b)).
    revert X. generalize (live ps (range_list a b)) (live ps (o_rows f)). clear. induction l as [|x l IH]; intros [|y m] H; try discriminate; auto. cbn. f_equal. apply IH. cbn in H. lia. }
  unfold deleted in S, P. rewrite ED in S, P. rewrite ES in W, L. inversion W as [|? ? Wr _]; subst. rewrite EL in *. clearbody l. clear EL.
  cbn [seq_iter flat_map seg_iter] in L. rewrite app_nil_r, range_len in L.
  unfold rechunk_stable in H. rewrite sort_back_spec in H by (auto; cbn; repeat constructor; auto). cbn [obind] in H.
  unfold mask_all in H. cbn [loaded_pairs map combine sequence_opt fst snd] in H. rewrite ED, ES in H.
  destruct (seq_mask [Range a b] ps) as [q|] eqn:EM; [|discriminate]. cbn [obind omap] in H. injection H as H.
  apply (gap_lost a b ps sizes q seqs lo hi); auto. intros p Hp. rewrite L. auto.
Qed.
