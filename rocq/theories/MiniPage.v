(* Reading pages of the mini-block layout. *)
From Coq Require Import List Arith NArith ZArith Bool Lia.
From Verif Require Import Lib SerdeModel SerdeProofs RepDefModel FullZipModel FullZipProofs FullZipRead FullZipPage FullZipVar MiniModel MiniProofs MiniSched MiniBytes.
Import ListNotations.
Local Open Scope nat_scope.

Definition shown (x : item) : bool := is_some (i_val x).
(* how items are cut for chunks of [ns] values: a chunk has the shortest run of items with its values, the last one the rest *)
Fixpoint take_vals (n : nat) (l : list item) : list item * list item :=
  match n, l with
  | 0, _ => ([], l)
  | S _, [] => ([], [])
  | S n', x :: t => let '(a, b) := take_vals (if shown x then n' else n) t in (x :: a, b)
  end.
Fixpoint carve (ns : list nat) (l : list item) : list (list item) :=
  match ns with [] => [] | [_] => [l] | n :: t => let '(a, b) := take_vals n l in a :: carve t b end.
(* rows of a page of the mini-block layout; only the first item of a row may be without a value *)
Definition mini_ok (ms : list meaning) (hd : bool) (ipr : nat) (rows : list (list item)) : Prop :=
  rows <> [] /\ 0 < ipr /\ Forall (item_ok ms hd) (concat rows) /\
  (if has_lists ms then ipr = 1 /\ Forall (row_ok (lists ms)) rows /\ Forall (fun r => Forall (fun x => i_val x <> None) (tl r)) rows
   else Forall (fun r => length r = ipr) rows /\ Forall (fun it => i_rep it = 0) (concat rows)) /\
  (N.of_nat (total_levels ms + lists ms) < 65536)%N /\ (N.of_nat (length (concat rows) + 1) < 18446744073709551616)%N.

Lemma cut_mid : forall A (a b c : list A), cut (length a) (length a + length b) (a ++ b ++ c) = Some b.
Proof. intros A a b c. exact (FullZipVar.cut_mid 0 0 (le_S _ _ (le_n 0)) (le_S _ _ (le_n 0)) A a b c). Qed.
Lemma app_split : forall A (a a' b b' : list A), length a = length a' -> a ++ b = a' ++ b' -> a = a' /\ b = b'.
Proof. induction a as [|x a IH]; intros [|y a'] b b' E H; try discriminate E; [auto|]. injection H as -> H. injection E as E. destruct (IH _ _ _ E H) as [-> ->]. auto. Qed.
Lemma vals_count : forall l, length (flat_map vals_of l) = vcount shown l.
Proof. induction l as [|x l IH]; [reflexivity|]. cbn [flat_map]. rewrite app_length, IH. unfold vcount, shown, vals_of. cbn [filter]. destruct (i_val x); cbn; reflexivity. Qed.
Lemma take_app : forall n l, fst (take_vals n l) ++ snd (take_vals n l) = l.
Proof.
  intros n l. revert n. induction l as [|x l IH]; intros n; destruct n as [|n]; try reflexivity. cbn [take_vals]. destruct (take_vals (if shown x then n else S n) l) as [a b] eqn:E. cbn [fst snd app]. f_equal. specialize (IH (if shown x then n else S n)). rewrite E in IH. exact IH.
Qed.
Lemma take_count : forall n l, n <= vcount shown l -> vcount shown (fst (take_vals n l)) = n.
Proof.
  intros n l. revert n. induction l as [|x l IH]; intros n H; destruct n as [|n]; try reflexivity; [cbn in H; lia|]. cbn [take_vals]. specialize (IH (if shown x then n else S n)). destruct (take_vals (if shown x then n else S n) l) as [a b]. cbn [fst] in *. unfold vcount in *. cbn [filter] in *. destruct (shown x); cbn [length] in *; rewrite IH by lia; reflexivity.
Qed.
Lemma take_ne : forall n l, 0 < n -> n <= vcount shown l -> fst (take_vals n l) <> [].
Proof. intros n l P H Q. assert (C := take_count n l H). rewrite Q in C. cbn in C. lia. Qed.
Lemma pass_take : forall mv l n, Forall (told mv shown) l -> n <= vcount shown l -> pass mv n (map i_def l) = Some (length (fst (take_vals n l))).
Proof.
  intros mv l. induction l as [|x l IH]; intros n F H; destruct n as [|n]; try reflexivity; [cbn in H; lia|]. inversion F as [|? ? F1 F2]; subst. cbn [map pass take_vals]. rewrite <- F1. specialize (IH (if shown x then n else S n) F2). destruct (take_vals (if shown x then n else S n) l) as [a b]. cbn [fst length] in *. unfold vcount in H. cbn [filter] in H. rewrite IH; [reflexivity|]. unfold vcount. destruct (shown x); cbn [length] in H; lia.
Qed.
Lemma take_all_vis : forall l n, Forall (fun x => shown x = true) l -> n <= length l -> length (fst (take_vals n l)) = n.
Proof.
  intros l n F H. assert (V := vcount_vis shown l F). assert (C := take_count n l ltac:(lia)). rewrite <- C at 2. symmetry. apply vcount_vis. assert (T := take_app n l). rewrite <- T in F. apply Forall_app in F. apply F.
Qed.
Definition lens (ps : list part) : list nat := map (fun t => length (t_vals t)) ps.
Lemma carve_ok : forall dec ps l, parts_ok dec ps -> ps <> [] -> flat_map t_vals ps = flat_map vals_of l ->
  concat (carve (lens ps) l) = l /\ length (carve (lens ps) l) = length ps /\ full (carve (lens ps) l) /\ Forall2 (fun t c => t_vals t = flat_map vals_of c) ps (carve (lens ps) l) /\ (1 < length ps -> hd [] (carve (lens ps) l) <> []).
Proof.
  intros dec. induction ps as [|t ps IH]; intros l P NE V; [congruence|]. destruct ps as [|t1 ps].
  - cbn [lens map carve concat length full]. cbn [flat_map] in V. rewrite app_nil_r in V. rewrite app_nil_r. repeat split; auto. cbn. lia.
  - destruct P as (_ & _ & (P1 & P2) & P3). assert (LN : length (t_vals t) <= vcount shown l) by (rewrite <- vals_count, <- V; cbn [flat_map]; rewrite app_length; lia).
    assert (POS : 0 < length (t_vals t)) by (rewrite P2; assert (Q := Nat.pow_nonzero 2 (t_log t)); lia).
    change (carve (lens (t :: t1 :: ps)) l) with (let '(a, b) := take_vals (length (t_vals t)) l in a :: carve (lens (t1 :: ps)) b).
    assert (TA := take_app (length (t_vals t)) l). assert (TC := take_count _ _ LN). assert (TN := take_ne _ _ POS LN). destruct (take_vals (length (t_vals t)) l) as [a b]. cbn [fst snd] in *.
    assert (VV : t_vals t = flat_map vals_of a /\ flat_map t_vals (t1 :: ps) = flat_map vals_of b) by (apply app_split; [rewrite vals_count; auto|]; rewrite <- flat_map_app, TA; exact V).
    destruct VV as [V1 V2]. destruct (IH b P3 ltac:(discriminate) V2) as (A & B & C & D & E). cbn [concat length]. rewrite A, B. split; [exact TA|]. split; [reflexivity|]. split; [|split; [constructor; auto|intros _; exact TN]].
    cbn [full]. destruct (carve (lens (t1 :: ps)) b); [exact Logic.I|]. split; [exact TN|exact C].
Qed.
Lemma slices_ok : forall dec (f : item -> nat) V D mv ps pre l before total, parts_ok dec ps -> ps <> [] -> flat_map t_vals ps = flat_map vals_of l ->
  (V = Some mv /\ D = Some (map i_def (pre ++ l)) /\ Forall (told mv shown) l) \/ ((V = None \/ D = None) /\ Forall (fun x => shown x = true) l) ->
  slice_levels V D (map f (pre ++ l)) (map t_log ps) (length pre) before total = Some (map (map f) (carve (lens ps) l)).
Proof.
  intros dec f V D mv. induction ps as [|t ps IH]; intros pre l before total P NE HV M; [congruence|]. destruct ps as [|t1 ps].
  - cbn [map slice_levels lens carve]. rewrite map_app, app_length, !map_length. assert (Q := cut_mid _ (map f pre) (map f l) []). rewrite app_nil_r, !map_length in Q. rewrite Q. reflexivity.
  - destruct P as (_ & _ & (P1 & P2) & P3). assert (LN : length (t_vals t) <= vcount shown l) by (rewrite <- vals_count, <- HV; cbn [flat_map]; rewrite app_length; lia).
    change (carve (lens (t :: t1 :: ps)) l) with (let '(a, b) := take_vals (length (t_vals t)) l in a :: carve (lens (t1 :: ps)) b).
    change (slice_levels V D (map f (pre ++ l)) (map t_log (t :: t1 :: ps)) (length pre) before total) with
      (obind (num_values (t_log t) before total) (fun n => obind (slice_next V D (length pre) n) (fun cur' => obind (cut (length pre) cur' (map f (pre ++ l))) (fun s => omap (cons s) (slice_levels V D (map f (pre ++ l)) (map t_log (t1 :: ps)) cur' (before + n) total))))).
    unfold num_values. rewrite (proj2 (Nat.eqb_neq _ 0) P1). cbn [obind]. rewrite <- P2.
    assert (TA := take_app (length (t_vals t)) l). assert (TC := take_count _ _ LN).
    assert (SN : slice_next V D (length pre) (length (t_vals t)) = Some (length pre + length (fst (take_vals (length (t_vals t)) l)))).
    { destruct M as [(-> & -> & T)|[Q A]].
      - unfold slice_next. rewrite map_length, app_length. rewrite (proj2 (Nat.ltb_ge _ _)) by lia. rewrite map_app. assert (SF := skip_front _ (map i_def pre) (map i_def l)). rewrite map_length in SF. rewrite SF, (pass_take mv l _ T LN). reflexivity.
      - rewrite (vcount_vis shown l A) in LN. rewrite (take_all_vis l _ A LN). unfold slice_next. destruct V, D; try reflexivity. destruct Q; discriminate. }
    rewrite SN. cbn [obind]. destruct (take_vals (length (t_vals t)) l) as [a b]. cbn [fst snd] in *.
    assert (VV : t_vals t = flat_map vals_of a /\ flat_map t_vals (t1 :: ps) = flat_map vals_of b) by (apply app_split; [rewrite vals_count; auto|]; rewrite <- flat_map_app, TA; exact HV). destruct VV as [V1 V2].
    assert (CU : cut (length pre) (length pre + length a) (map f (pre ++ l)) = Some (map f a)) by (rewrite <- TA, !map_app; assert (Q := cut_mid _ (map f pre) (map f a) (map f b)); rewrite !map_length in Q; exact Q). rewrite CU. cbn [obind].
    rewrite <- TA in *. rewrite app_assoc in M |- *. rewrite <- app_length. rewrite (IH (pre ++ a) b _ total P3 ltac:(discriminate) V2).
    + reflexivity.
    + destruct M as [(M1 & M2 & M3)|[M1 M2]]; [left|right]; [apply Forall_app in M3|apply Forall_app in M2]; intuition.
Qed.

(* ---- a page ---- *)
Section Page.
Context (ms : list meaning) (hd : bool) (ipr : nat) (rows : list (list item)) (OK : mini_ok ms hd ipr rows).
Context (dec : list N -> nat -> option (list (list N))) (ps : list part) (PO : parts_ok dec ps) (PN : ps <> []) (PV : flat_map t_vals ps = page_vals rows).
Notation L := (lists ms).
Notation hr := (has_lists ms).
Notation items := (concat rows).
Definition blocks_parts : blocks := {| b_data := flat_map t_bytes ps; b_chunks := map (fun t => (t_log t, length (t_bytes t))) ps |}.
Definition cs : list (list item) := carve (lens ps) items.
Definition units : list (list item) := if hr then rows else map (fun it => [it]) items.
Lemma below_inner : below_list ms = inner_levels ms.
Proof. clear. induction ms as [|m t IH]; [reflexivity|]. cbn. now rewrite IH. Qed.
Lemma items_told : Forall (told (below_list ms) shown) items.
Proof. rewrite below_inner. destruct OK as (_ & _ & F & _). eapply Forall_impl; [|exact F]. intros x (_ & X & _). exact X. Qed.
Lemma items_shown : hr && hd = false -> Forall (fun x => shown x = true) items.
Proof.
  intros H. destruct OK as (_ & _ & F & _). eapply Forall_impl; [|exact F]. intros x (X1 & X2 & X3). unfold shown. rewrite X2. apply Nat.leb_le. destruct hd.
  - rewrite andb_true_r in H. rewrite inner_nolist by exact H. exact X1.
  - rewrite (X3 eq_refl). lia.
Qed.
Lemma L_flat : hr = false -> L = 0.
Proof. unfold has_lists. intros H. apply Nat.ltb_ge in H. lia. Qed.
Lemma units_start : Forall (row_start L) units.
Proof.
  unfold units. destruct OK as (_ & _ & _ & Q & _). destruct (Bool.bool_dec hr true) as [H|H].
  - rewrite H in *. destruct Q as (_ & Q & _). eapply Forall_impl; [|exact Q]. intros r R. unfold row_ok, row_start, st in *. destruct r as [|x t]; [exact R|]. destruct R as [R1 R2]. split; [apply Nat.eqb_eq; exact R1|]. eapply Forall_impl; [|exact R2]. cbv beta. intros; apply Nat.eqb_neq; lia.
  - apply not_true_is_false in H. rewrite H in *. destruct Q as [_ Q]. rewrite (L_flat H). apply Forall_forall. intros u U. apply in_map_iff in U as [x [<- X]]. cbn. split; [|constructor]. unfold st. rewrite Forall_forall in Q. rewrite (Q x X). reflexivity.
Qed.
Lemma units_items : concat units = items.
Proof. unfold units. destruct hr; [reflexivity|]. apply concat_single. Qed.
Lemma carved : concat cs = items /\ length cs = length ps /\ full cs /\ Forall2 (fun t c => t_vals t = flat_map vals_of c) ps cs /\ (1 < length ps -> List.hd [] cs <> []).
Proof. apply (carve_ok dec); [exact PO|exact PN|exact PV]. Qed.
Lemma rows_units : MiniSched.rows L cs = units.
Proof. unfold MiniSched.rows. destruct carved as (C & _). rewrite C, <- units_items, split_rows by apply units_start. reflexivity. Qed.
Lemma items_ne : items <> [].
Proof.
  destruct OK as (NE & IP & _ & Q & _). clear -NE IP Q. destruct rows as [|r rs]; [congruence|]. cbn [concat]. intros E. apply app_eq_nil in E as [E _]. subst r. destruct (has_lists ms).
  - destruct Q as (_ & Q & _). inversion Q as [|? ? Q1 _]. exact Q1.
  - destruct Q as [Q _]. inversion Q as [|? ? Q1 _]. cbn in Q1. lia.
Qed.
Lemma cs_hd : exists c t, cs = c :: t /\ c <> [].
Proof.
  assert (IN := items_ne). destruct carved as (C & N & _ & _ & H). destruct cs as [|c t] eqn:E; [destruct ps; [congruence|discriminate N]|]. exists c, t. split; [reflexivity|]. destruct ps as [|p [|p1 ps']]; [congruence| |apply H; cbn; lia].
  destruct t; [|discriminate N]. cbn [concat] in C. rewrite app_nil_r in C. rewrite C. exact IN.
Qed.
Lemma first_starts : goes_on L cs = false.
Proof.
  destruct cs_hd as [c [t [E NE]]]. rewrite E. cbn [goes_on]. destruct c as [|x c]; [congruence|]. cbn [inside]. destruct carved as (C & _). rewrite E in C. assert (U := units_start). assert (UI := units_items). rewrite <- C in UI. destruct units as [|u us]; [discriminate|]. inversion U as [|? ? U1 _]; subst. destruct u as [|y u]; [destruct U1|]. cbn in UI. injection UI as -> _. destruct U1 as [U1 _]. rewrite U1. reflexivity.
Qed.
(* items that do not start a row have a value *)
Lemma inner_shown : forall x, In x items -> st L x = false -> shown x = true.
Proof.
  intros x X S. destruct OK as (_ & _ & F & Q & _). destruct (Bool.bool_dec hr true) as [H|H].
  - rewrite H in Q. destruct Q as (_ & Q & V). apply in_concat in X as [r [R X]]. rewrite Forall_forall in Q, V. specialize (Q r R). specialize (V r R). destruct r as [|y t]; [destruct X|]. destruct Q as [Q _]. destruct X as [->|X]; [unfold st in S; apply Nat.eqb_neq in S; congruence|]. cbn [tl] in V. rewrite Forall_forall in V. specialize (V x X). unfold shown. destruct (i_val x); [reflexivity|congruence].
  - apply not_true_is_false in H. assert (A := items_shown ltac:(rewrite H; reflexivity)). rewrite Forall_forall in A. apply A. exact X.
Qed.
Lemma rep_le : forall x, In x items -> i_rep x <= L.
Proof.
  intros x X. destruct OK as (_ & _ & _ & Q & _). destruct (Bool.bool_dec hr true) as [H|H].
  - rewrite H in Q. destruct Q as (_ & Q & _). apply in_concat in X as [r [R X]]. rewrite Forall_forall in Q. specialize (Q r R). destruct r as [|y t]; [destruct X|]. destruct Q as [Q1 Q2]. destruct X as [<-|X]; [lia|]. rewrite Forall_forall in Q2. specialize (Q2 x X). lia.
  - apply not_true_is_false in H. rewrite H in Q. destruct Q as [_ Q]. rewrite Forall_forall in Q. rewrite (Q x X). lia.
Qed.
Lemma max_visible_eq : max_visible ms = if hr then Some (below_list ms) else None.
Proof.
  unfold max_visible, has_lists, lists. assert (E : existsb m_list ms = (0 <? length (filter m_list ms))); [|rewrite E; reflexivity]. clear. induction ms as [|m t IH]; [reflexivity|]. cbn. destruct (m_list m); cbn; [reflexivity|exact IH].
Qed.
Lemma sliced : forall f, slice_levels (max_visible ms) (if hd then Some (map i_def items) else None) (map f items) (map t_log ps) 0 0 (length (page_vals rows)) = Some (map (map f) cs).
Proof.
  intros f. apply (slices_ok dec f _ _ (below_list ms) ps [] items 0); [exact PO|exact PN|exact PV|]. rewrite max_visible_eq. destruct (Bool.bool_dec (hr && hd) true) as [H|H].
  - left. apply andb_true_iff in H as [H1 H2]. rewrite H1, H2. split; [reflexivity|]. split; [reflexivity|]. apply items_told.
  - right. apply not_true_is_false in H. split; [|apply items_shown; exact H]. destruct hd; [|right; reflexivity]. rewrite andb_true_r in H. rewrite H. left. reflexivity.
Qed.
Lemma none_levels : forall (f : item -> nat), map (fun _ : nat => @nil N) (map t_log ps) = map (lvs false f) cs.
Proof. intros f. destruct carved as (_ & N & _). clear -N. revert N. generalize cs. induction ps as [|t l IH]; intros [|c r] N; try discriminate N; [reflexivity|]. cbn. f_equal. apply IH. now injection N. Qed.
Lemma level_lists : forall f, map level_bytes (map (map f) cs) = map (lvs true f) cs.
Proof. intros f. rewrite map_map. reflexivity. Qed.

Section Written.
Context (p : mpage) (EN : encode_mini (page_levels ms hd rows) (length (page_vals rows)) blocks_parts = Some p).
Lemma encoded : exists ws, map w_part ws = ps /\ map w_items ws = cs /\ m_data p = flat_map w_bytes ws /\ init_chunks p = metas_of 0 ws /\ init_index p = blocks_of L 0 cs /\ m_rep p = hr /\ m_def p = hd /\ m_meaning p = ms /\
  Forall (fun w => one_chunk (t_log (w_part w)) (lvs hr i_rep (w_items w)) (lvs hd i_def (w_items w)) (t_bytes (w_part w)) = Some (w_bytes w, meta_word (t_log (w_part w)) (w_bytes w))) ws.
Proof.
  assert (SI := sliced i_rep). assert (SD := sliced i_def). destruct carved as (CC & CN & _). destruct OK as (_ & _ & _ & _ & LB & IB).
  assert (E : exists idx data meta, (hr = true -> index_of L true (map (map i_rep) cs) [] = Some idx) /\ (hr = false -> idx = []) /\
    write_chunks (map (fun t => (t_log t, length (t_bytes t))) ps) (map (lvs hr i_rep) cs) (map (lvs hd i_def) cs) (flat_map t_bytes ps) = Some (data, meta) /\
    p = {| m_meta := meta; m_data := data; m_index := match idx with [] => None | _ => Some (u64_bytes idx) end; m_items := length (page_vals rows); m_rep := hr; m_def := hd; m_meaning := ms |}).
  { unfold encode_mini, page_levels in EN. cbn [r_rep r_def r_meaning b_chunks b_data blocks_parts] in EN. rewrite map_map in EN. change (map (fun x : part => fst (t_log x, length (t_bytes x))) ps) with (map t_log ps) in EN.
    assert (DEF : forall (B : Type) (k : list (list N) -> option B), obind (match (if hd then Some (map i_def items) else None) with Some d => omap (map level_bytes) (slice_levels (max_visible ms) (if hd then Some (map i_def items) else None) d (map t_log ps) 0 0 (length (page_vals rows))) | None => Some (map (fun _ : nat => @nil N) (map t_log ps)) end) k = k (map (lvs hd i_def) cs)).
    { intros B k. destruct hd; [rewrite SD; cbn [omap obind]; rewrite level_lists; reflexivity|]. cbn [obind]. rewrite (none_levels i_def). reflexivity. }
    assert (IS : forall b, is_some (if hd then Some (map i_def items) else None) = hd /\ is_some (if (b : bool) then Some (map i_rep items) else None) = b) by (intros [|]; destruct hd; auto). destruct (IS hr) as [IS1 IS2]. rewrite IS1, IS2 in EN.
    destruct (Bool.bool_dec hr true) as [H|H].
    - rewrite H in *. rewrite SI in EN. cbn [obind] in EN. assert (ML : (0 <? max_rep ms) = true) by exact H. rewrite ML in EN. change (max_rep ms) with L in EN. destruct (index_of L true (map (map i_rep) cs) []) as [idx|] eqn:IX; [|discriminate]. cbn [omap obind] in EN. rewrite DEF, level_lists in EN.
      destruct (write_chunks _ _ _ _) as [[data meta]|] eqn:W; [|discriminate]. cbn [omap] in EN. injection EN as <-. exists idx, data, meta. split; [reflexivity|]. split; [discriminate|]. split; [try exact W; reflexivity|reflexivity].
    - apply not_true_is_false in H. rewrite H in *. cbn [obind] in EN. rewrite DEF, (none_levels i_rep) in EN. destruct (write_chunks _ _ _ _) as [[data meta]|] eqn:W; [|discriminate]. cbn [omap] in EN. injection EN as <-. exists [], data, meta. split; [discriminate|]. split; [reflexivity|]. split; [try exact W; reflexivity|reflexivity]. }
  destruct E as [idx [data [meta (IX & IN & W & ->)]]]. destruct (write_ok hr hd ps cs _ _ (eq_sym CN) eq_refl W) as [ws (W1 & W2 & W3 & W4 & W5)]. cbn [fst snd] in W3, W4.
  assert (MT : init_chunks {| m_meta := meta; m_data := data; m_index := match idx with [] => None | _ => Some (u64_bytes idx) end; m_items := length (page_vals rows); m_rep := hr; m_def := hd; m_meaning := ms |} = metas_of 0 ws).
  { unfold init_chunks. cbn [m_meta m_items]. assert (FB : Forall (fun w => length (w_bytes w) mod 8 = 0 /\ 8 <= length (w_bytes w) /\ (N.of_nat (length (w_bytes w)) <= 16384)%N) ws).
    { eapply Forall_impl; [|exact W5]. cbv beta. intros w X. destruct (one_chunk_ok _ _ _ _ _ _ X) as (_ & _ & A & B & C & _). auto. }
    assert (PL : Forall (fun w => (N.of_nat (t_log (w_part w)) < 16)%N) ws).
    { assert (Q : Forall (fun t => (N.of_nat (t_log t) < 16)%N) ps) by (clear -PO; induction ps as [|t l IH]; [constructor|]; destruct PO as (_ & A & _ & B); constructor; auto). rewrite <- W1 in Q. rewrite Forall_map in Q. exact Q. }
    assert (PO' := PO). rewrite <- W1 in PO'. rewrite W4, meta_words.
    - apply (metas_ok dec); [exact PO'|exact FB|]. rewrite <- PV, <- W1. clear. induction ws as [|w ws IH]; [reflexivity|]. cbn [map flat_map]. rewrite app_length, IH. cbn. reflexivity.
    - apply Forall_forall. intros w X. rewrite Forall_forall in FB, PL. destruct (FB w X) as (A & B & C). apply (word_ok _ _ (PL w X) A B C). }
  exists ws. split; [exact W1|]. split; [exact W2|]. split; [exact W3|]. split; [exact MT|]. split; [|repeat split; auto].
  unfold init_index. rewrite MT. cbn [m_index]. destruct cs_hd as [c [t [CE NE]]]. assert (FS := first_starts). destruct (Bool.bool_dec hr true) as [H|H].
  - specialize (IX H). rewrite CE in IX. destruct (index_written L c t idx NE IX) as [F EO]. assert (F' : Forall (fun d => d <> []) (c :: t)) by (constructor; auto). assert (EB := entries_bound L (c :: t) idx F' EO). rewrite <- CE in *. rewrite CC in EB.
    assert (PR : pairs (map of_le_bytes (chunks_exact (length (u64_bytes idx)) 8 (u64_bytes idx))) = idx).
    { apply pairs_ok. eapply Forall_impl; [|exact EB]. cbv beta. intros x [X1 X2]. lia. }
    assert (NI : idx <> []) by (intros ->; rewrite CE in EO; exact EO). assert (MI : match idx with [] => None | _ => Some (u64_bytes idx) end = Some (u64_bytes idx)) by (destruct idx; [congruence|reflexivity]). rewrite MI, PR. rewrite <- (index_decoded L cs idx 0 F' EO), FS. reflexivity.
  - apply not_true_is_false in H. rewrite (IN H). assert (ST : Forall (fun x => st L x = true) (concat cs)).
    { rewrite CC. destruct OK as (_ & _ & _ & Q & _). rewrite H in Q. destruct Q as [_ Q]. rewrite (L_flat H). eapply Forall_impl; [|exact Q]. intros x X. unfold st. cbv beta in X. rewrite X. reflexivity. }
    destruct carved as (_ & _ & _ & F2 & _). assert (SH := items_shown ltac:(rewrite H; reflexivity)). rewrite <- CC in SH. rewrite <- W2 in *. rewrite <- W1 in F2. clear -ST F2 SH. 
    assert (G : forall l pos first, Forall (fun x => st L x = true) (concat (map w_items l)) -> Forall (fun x => shown x = true) (concat (map w_items l)) -> Forall2 (fun t c => t_vals t = flat_map vals_of c) (map w_part l) (map w_items l) -> decode_index false first (map (fun c => (c_values c, 0)) (metas_of pos l)) = blocks_of L first (map w_items l)).
    { induction l as [|w l IH]; intros pos first S SV F; [reflexivity|]. cbn [map metas_of decode_index blocks_of concat] in *. cbn [map] in F. inversion F as [|? ? ? ? F1 F3]; subst. apply Forall_app in S as [S1 S2]. apply Forall_app in SV as [V1 V2].
      change (0 <? 0) with false. cbn [c_values]. assert (CL : length (t_vals (w_part w)) + 0 - 0 = count L (w_items w)).
      { rewrite F1, vals_count, (vcount_vis shown _ V1). unfold count. clear -S1. induction S1 as [|x c X S IH]; [reflexivity|]. cbn [filter]. rewrite X. cbn [length] in *. lia. }
      rewrite CL. assert (INS : inside L (w_items w) = false) by (destruct (w_items w) as [|x c]; [reflexivity|]; inversion S1 as [|? ? S3 _]; subst; cbn; rewrite S3; reflexivity).
      assert (GO : goes_on L (map w_items l) = false) by (destruct l as [|w1 l]; [reflexivity|]; cbn [map goes_on concat] in *; apply Forall_app in S2 as [S2 _]; destruct (w_items w1) as [|x c]; [reflexivity|]; inversion S2 as [|? ? S3 _]; subst; cbn; rewrite S3; reflexivity).
      rewrite INS, GO. f_equal. apply IH; assumption. }
    apply G; assumption.
Qed.

(* a piece *)
Lemma in_items : forall k x, In x (nth k cs []) -> In x items.
Proof. intros k x X. destruct carved as (C & _). rewrite <- C. apply in_concat. exists (nth k cs []). split; [|exact X]. destruct (Nat.lt_ge_cases k (length cs)) as [Q|Q]; [apply nth_In; exact Q|]. rewrite nth_overflow in X by exact Q. destruct X. Qed.
Lemma piece_read : forall d, piece_ok L cs d -> decode_piece dec p d = Some (if hr then map i_rep (piece_items L cs d) else [], if hd then map i_def (piece_items L cs d) else [], flat_map vals_of (piece_items L cs d)).
Proof.
  intros d (D1 & D2 & D3 & D4 & D5 & D6). destruct encoded as [ws (W1 & W2 & W3 & W4 & _ & W6 & W7 & W8 & W9)]. set (k := s_chunk (d_instr d)) in *.
  assert (LW : length ws = length cs) by (rewrite <- W2, map_length; reflexivity).
  destruct (nth_error ws k) as [w|] eqn:NW; [|apply nth_error_None in NW; lia]. destruct (metas_nth ws 0 k w NW) as [a [b (A1 & A2 & A3)]].
  assert (CW : chunk cs (d_instr d) = w_items w) by (unfold chunk; fold k; rewrite <- W2; apply nth_error_nth; apply map_nth_error; exact NW).
  assert (INI : forall x, In x (w_items w) -> In x items) by (rewrite <- CW; intros x; apply in_items).
  unfold decode_piece. fold k. rewrite W4, A3. cbn [obind c_pos c_size c_values Nat.add]. rewrite W3, A1, flat_map_app. cbn [flat_map]. rewrite sub_mid. cbn [obind]. rewrite W6, W7, W8.
  assert (PW : exists extra, dec (t_bytes (w_part w)) (length (t_vals (w_part w))) = Some (t_vals (w_part w) ++ extra)).
  { assert (J : In (w_part w) ps) by (rewrite <- W1; apply in_map; eapply nth_error_In; exact NW). clear -PO J. induction ps as [|t l IH]; [destruct J|]. destruct PO as (Q & _ & _ & R). destruct J as [->|J]; auto. }
  destruct PW as [extra DV].
  assert (VW : t_vals (w_part w) = flat_map vals_of (w_items w)).
  { destruct carved as (_ & _ & _ & F & _). rewrite <- W1, <- W2 in F. apply nth_error_In in NW. clear -F NW. induction ws as [|x l IH]; [destruct NW|]. cbn [map] in F. inversion F as [|? ? ? ? F1 F2]; subst. destruct NW as [->|J]; auto. }
  assert (O : one_chunk (t_log (w_part w)) (lvs hr i_rep (w_items w)) (lvs hd i_def (w_items w)) (t_bytes (w_part w)) = Some (w_bytes w, meta_word (t_log (w_part w)) (w_bytes w))) by (rewrite Forall_forall in W9; apply W9; eapply nth_error_In; exact NW).
  destruct OK as (_ & _ & FI & _ & LB & _). rewrite Forall_forall in FI.
  assert (CD : chunk_decode dec hr hd (w_bytes w) (length (t_vals (w_part w))) = Some (if hr then Some (map i_rep (w_items w)) else None, if hd then Some (map i_def (w_items w)) else None, t_vals (w_part w) ++ extra)).
  { assert (LV : forall b f, lvs b f (w_items w) = level_bytes (if b then map f (w_items w) else [])) by (intros [|] f; reflexivity). rewrite !LV in O.
    rewrite (chunk_decode_ok dec hr hd _ _ _ (length (t_vals (w_part w))) _ _ _ O).
    - rewrite DV. cbn [omap]. destruct hr, hd; reflexivity.
    - destruct hr; [|constructor]. apply Forall_forall. intros r R. apply in_map_iff in R as [x [<- X]]. assert (Q := rep_le x (INI x X)). lia.
    - destruct hd eqn:HD; [|constructor]. apply Forall_forall. intros r R. apply in_map_iff in R as [x [<- X]]. destruct (FI x (INI x X)) as (Q & _). lia. }
  rewrite CD. cbn [obind]. unfold piece_items. set (c := chunk cs (d_instr d)) in *. rewrite <- CW in *. fold (row_of d). set (s := row_of d) in *. set (n := Z.to_nat (d_take d)) in *. replace (Z.to_nat (Z.of_nat s + d_take d)) with (s + n) by lia.
  destruct (split_pieces L c) as [SP1 SP2].
  assert (NV : Forall (fun x => shown x = true) (List.hd [] (split L c))).
  { apply Forall_forall. intros x X. apply inner_shown; [apply INI; rewrite <- (split_concat L c), split_eta; cbn [concat]; apply in_or_app; left; exact X|]. rewrite Forall_forall in SP1. apply SP1. exact X. }
  assert (IV : Forall (inner_vis shown) (tl (split L c))).
  { apply Forall_forall. intros r R. rewrite Forall_forall in SP2. specialize (SP2 r R). unfold inner_vis. apply Forall_forall. intros x X. destruct r as [|y t]; [destruct X|]. cbn [tl] in X. destruct SP2 as [_ SP2]. rewrite Forall_forall in SP2. apply inner_shown; [|apply SP2; exact X]. apply INI. rewrite <- (split_concat L c), split_eta. cbn [concat]. apply in_or_app. right. apply in_concat. exists (y :: t). split; [exact R|right; exact X]. }
  assert (VC : length (t_vals (w_part w)) = vcount shown c) by (rewrite VW; apply vals_count). rewrite VC.
  assert (TC : Forall (told (below_list ms) shown) c) by (apply Forall_forall; intros x X; assert (Q := items_told); rewrite Forall_forall in Q; apply Q; apply INI; exact X).
  assert (MR : map_range s (s + n) (if hr then Some (map i_rep c) else None) (if hd then Some (map i_def c) else None) (max_rep ms) (below_list ms) (vcount shown c) (d_act d)
    = Some ((vcount shown (before L (d_act d) s c), vcount shown (before L (d_act d) s c) + vcount shown (chosen L (d_act d) s n c)), (length (before L (d_act d) s c), length (before L (d_act d) s c) + length (chosen L (d_act d) s n c)))).
  { destruct (Bool.bool_dec hr true) as [H|H].
    - rewrite H. change (max_rep ms) with L. apply map_range_ok; auto. intros Q. assert (SH := items_shown ltac:(rewrite H, Q; reflexivity)). rewrite Forall_forall in SH. apply Forall_forall. intros x X. apply SH. apply INI. exact X.
    - apply not_true_is_false in H. rewrite H. cbn [map_range]. assert (SH := items_shown ltac:(rewrite H; reflexivity)).
      assert (ST : Forall (fun x => st L x = true) c). { apply Forall_forall. intros x X. destruct OK as (_ & _ & _ & Q & _). rewrite H in Q. destruct Q as [_ Q]. rewrite Forall_forall in Q. unfold st. rewrite (L_flat H), (Q x (INI x X)). reflexivity. }
      assert (SE : split L c = [] :: map (fun x => [x]) c).
      { rewrite <- (concat_single _ c) at 1. apply split_rows. apply Forall_forall. intros u U. apply in_map_iff in U as [x [<- X]]. rewrite Forall_forall in ST. cbn. auto. }
      assert (SC : Forall (fun x => shown x = true) c) by (rewrite Forall_forall in SH; apply Forall_forall; intros x X; apply SH; apply INI; exact X).
      assert (CL : count L c = length c) by (assert (Q := tl_split_length L c); rewrite SE in Q; cbn [tl] in Q; rewrite map_length in Q; auto).
      assert (BE : before L (d_act d) s c = firstn s c) by (unfold before; rewrite SE; cbn [List.hd tl app]; rewrite firstn_map, concat_single; destruct (d_act d); auto; rewrite (D4 eq_refl); reflexivity).
      assert (CE : chosen L (d_act d) s n c = firstn n (skipn s c)) by (unfold chosen; rewrite SE; cbn [List.hd tl]; rewrite skipn_map, firstn_map, concat_single; destruct (d_act d); reflexivity).
      rewrite BE, CE. assert (FV : forall l, (forall x, In x l -> In x c) -> vcount shown l = length l) by (intros l Q; apply vcount_vis; apply Forall_forall; intros x X; rewrite Forall_forall in SC; auto).
      rewrite !FV; [|intros x X; rewrite <- (firstn_skipn s c); apply in_or_app; right; rewrite <- (firstn_skipn n (skipn s c)); apply in_or_app; left; exact X|intros x X; rewrite <- (firstn_skipn s c); apply in_or_app; left; exact X].
      rewrite !firstn_length, skipn_length. rewrite Nat.min_l by lia. rewrite Nat.min_l by lia. reflexivity. }
  rewrite MR. cbn [obind fst snd]. destruct (chosen_mid L (d_act d) s n c D4) as [rest CM]. set (B := before L (d_act d) s c) in *. set (X := chosen L (d_act d) s n c) in *.
  assert (CU : forall f : item -> nat, cut (length B) (length B + length X) (map f c) = Some (map f X)) by (intros f; rewrite CM, !map_app; assert (Q := cut_mid _ (map f B) (map f X) (map f rest)); rewrite !map_length in Q; exact Q).
  assert (CR : (match (if hr then Some (map i_rep c) else None) with Some r => cut (length B) (length B + length X) r | None => Some [] end) = Some (if hr then map i_rep X else [])) by (destruct hr; auto). rewrite CR. cbn [obind].
  assert (CDD : (match (if hd then Some (map i_def c) else None) with Some r => cut (length B) (length B + length X) r | None => Some [] end) = Some (if hd then map i_def X else [])) by (destruct hd; auto). rewrite CDD. cbn [obind].
  rewrite VW, CM, !flat_map_app, <- !app_assoc. assert (Q := cut_mid _ (flat_map vals_of B) (flat_map vals_of X) (flat_map vals_of rest ++ extra)). rewrite !vals_count in Q. rewrite Q. reflexivity.
Qed.
Lemma pieces_read : forall ds, ds <> [] -> Forall (piece_ok L cs) ds -> forall us, flat_map (piece_items L cs) ds = concat us -> decode_pieces dec p ds = Some (batch_of ms hd us).
Proof.
  intros ds NE F us E. destruct encoded as [ws (_ & _ & _ & _ & _ & W6 & W7 & _)]. unfold decode_pieces. assert (S : sequence_opt (map (decode_piece dec p) ds) = Some (map (fun d => (if hr then map i_rep (piece_items L cs d) else [], if hd then map i_def (piece_items L cs d) else [], flat_map vals_of (piece_items L cs d))) ds)).
  { clear -F PO PV PN OK EN. induction F as [|d ds D F IH]; [reflexivity|]. cbn [map sequence_opt]. rewrite (piece_read d D), IH. reflexivity. }
  rewrite S. cbn [omap]. rewrite W6, W7. destruct ds as [|d0 ds]; [congruence|]. cbn [length Nat.eqb negb]. rewrite !andb_true_r. set (l := d0 :: ds) in *. f_equal. unfold batch_of. rewrite <- E. clear.
  assert (A : forall (f : item -> nat) b, flat_map (fun d => if (b : bool) then map f (piece_items L cs d) else []) l = if b then map f (flat_map (piece_items L cs) l) else []).
  { intros f b. destruct b; [|induction l; auto]. induction l as [|x l IH]; [reflexivity|]. cbn [flat_map]. rewrite map_app, IH. reflexivity. }
  rewrite !flat_map_concat_map, !map_map, <- !flat_map_concat_map. cbn [fst snd]. rewrite (A i_rep hr), (A i_def hd).
  assert (B : flat_map (fun d => flat_map vals_of (piece_items L cs d)) l = flat_map vals_of (flat_map (piece_items L cs) l)) by (clear A; induction l as [|x l IH]; [reflexivity|]; cbn [flat_map]; rewrite flat_map_app, IH; reflexivity). rewrite B.
  destruct hr, hd; reflexivity.
Qed.
Lemma batches_read : forall ns is chunks skip, 0 < ipr -> state_ok L cs is false skip -> loaded is chunks -> Forall (fun n => 0 < n) ns -> skip + sumn (map (fun n => n * ipr) ns) <= length (tl (sem L cs is)) ->
  drain_batches dec p ipr ns {| e_instrs := is; e_chunks := chunks; e_skip := skip |} = Some (map (batch_of ms hd) (groups (map (fun n => n * ipr) ns) (skipn skip (tl (sem L cs is))))).
Proof.
  induction ns as [|n ns IH]; intros is chunks skip IP S LD P B; [reflexivity|]. inversion P as [|? ? P1 P2]; subst. cbn [map] in B. change (sumn (n * ipr :: map (fun n0 => n0 * ipr) ns)) with (n * ipr + sumn (map (fun n0 => n0 * ipr) ns)) in B. cbn [drain_batches e_instrs e_chunks e_skip].
  destruct (drain_ok L cs is chunks (n * ipr) false skip S LD ltac:(lia)) as [ds [s' (D1 & D2 & D3 & D4 & D5 & D6 & D7 & D8)]]. rewrite D1. cbn [obind]. rewrite (pieces_read ds) with (us := firstn (n * ipr) (skipn skip (tl (sem L cs is)))); [|apply D8; nia|exact D3|exact D2]. cbn [obind].
  destruct s' as [is' ch' sk']. cbn [e_instrs e_chunks e_skip] in *. rewrite IH; auto.
  - cbn [omap map groups]. rewrite D6. reflexivity.
  - assert (Q := f_equal (@length _) D6). rewrite !skipn_length in Q. lia.
Qed.
End Written.
End Page.
