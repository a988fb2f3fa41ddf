(* Strings of file format 2.0 are read as they were written (C104). *)
From Coq Require Import List Arith Bool Lia.
From Verif Require Import Lib PageModel PageProofs ListEncModel ListEncProofs ListEncRead BinEncModel.
Import ListNotations.
Local Open Scope nat_scope.

(* ---- specification: ListEncProofs.lists_of gives the strings of an array ---- *)
Definition strings_of (arrs : list (larr nat)) : list (option (list nat)) := concat (map lists_of arrs).
(* ranges of rows of a page, not empty, of which only the first may start with row 0 *)
Definition page_ranges (rs : list range) (n : nat) : Prop := Forall (fun r => fst r < snd r /\ snd r <= n) rs /\ Forall (fun r => 0 < fst r) (tl rs).

Definition bpage_ok (p : bpage) (rows : list (nat * bool)) : Prop := bp_indices p = stored (bp_adj p) 0 rows /\ (rows <> [] -> size rows < bp_adj p) /\ length (bp_bytes p) = size rows.

(* ---- encoding ---- *)
Lemma combine_split' : forall A B (l : list (A * B)), combine (map fst l) (map snd l) = l.
Proof. induction l as [|[a b] l IH]; [reflexivity|]. cbn. now rewrite IH. Qed.
Lemma ends_runs : forall ls acc k, ends acc (k :: runs k ls) = runs acc ls.
Proof.
  induction ls as [|l t IH]; intros acc k; [reflexivity|]. cbn [runs]. change (ends acc (k :: (k + l) :: runs (k + l) t)) with ((acc + (k + l - k)) :: ends (acc + (k + l - k)) ((k + l) :: runs (k + l) t)).
  rewrite IH. now replace (k + l - k) with l by lia.
Qed.
Lemma runs_diffs_shift : forall t o b, sorted_from o t -> forall o0, o0 <= o -> map (fun x => x + b - o0) t = runs (b + (o - o0)) (diffs o t).
Proof.
  induction t as [|x t IH]; intros o b H o0 L; [reflexivity|]. cbn in H. destruct H as [H1 H2]. cbn [map diffs runs]. rewrite (IH x b H2) by lia. replace (b + (x - o0)) with (b + (o - o0) + (x - o)) by lia. f_equal. lia.
Qed.
Lemma stitch_runs : forall arrs : list (larr nat), Forall array_ok arrs -> stitch (map la_offsets arrs) = 0 :: runs 0 (map fst (concat (map rows_of arrs))).
Proof.
  intros arrs H. unfold stitch.
  assert (G : forall ls, fold_left (fun dest o => match o with [] => dest | start :: t => dest ++ map (fun x => x + last dest 0 - start) t end) (map la_offsets arrs) (0 :: runs 0 ls) = 0 :: runs 0 (ls ++ map fst (concat (map rows_of arrs)))).
  { induction H as [|a t H1 H2 IH]; intros ls; [cbn; now rewrite app_nil_r|]. destruct (rows_of_spec nat a H1) as [o [t' [E [Ef [El [Es [So Le]]]]]]]. cbn [map concat fold_left]. rewrite E.
    rewrite last_cons, runs_last_acc. cbn [plus app]. pose proof (runs_diffs_shift t' o (sumn ls) So o (le_n o)) as R. rewrite Nat.sub_diag, Nat.add_0_r in R. rewrite R.
    assert (Ea : runs 0 ls ++ runs (sumn ls) (diffs o t') = runs 0 (ls ++ diffs o t')) by (now rewrite runs_app).
    rewrite Ea, IH. rewrite map_app, Ef, app_assoc. reflexivity. }
  exact (G []).
Qed.
Lemma stored_combine : forall ls v adj acc, length v = length ls -> map (fun p : nat * bool => if snd p then fst p else fst p + adj) (combine (runs acc ls) v) = stored adj acc (combine ls v).
Proof.
  induction ls as [|l t IH]; intros [|b v] adj acc H; try discriminate; [reflexivity|]. cbn [runs combine map stored fst snd]. rewrite IH by (now injection H). f_equal. destruct b; lia.
Qed.
Lemma stored_all_valid : forall ls adj acc, runs acc ls = stored adj acc (combine ls (repeat true (length ls))).
Proof. induction ls as [|l t IH]; intros; [reflexivity|]. cbn [runs length repeat combine stored]. rewrite <- IH. f_equal. lia. Qed.
Definition block_rows (b : vblock) (ls : list nat) : list (nat * bool) := combine ls (match vb_nulls b with Some v => v | None => repeat true (length ls) end).
Lemma bin_encode_ok : forall b ls, vb_offsets b = 0 :: runs 0 ls -> (match vb_nulls b with Some v => length v = length ls | None => True end) -> length (vb_bytes b) = sumn ls ->
  bpage_ok (bin_encode b) (block_rows b ls).
Proof.
  intros b ls E V L. unfold bpage_ok, bin_encode, block_rows. rewrite E, ends_runs.
  assert (Ef : map fst (combine ls (match vb_nulls b with Some v => v | None => repeat true (length ls) end)) = ls). { apply map_fst_combine. destruct (vb_nulls b); [auto|now rewrite repeat_length]. }
  assert (Es : size (combine ls (match vb_nulls b with Some v => v | None => repeat true (length ls) end)) = sumn ls) by (unfold size; now rewrite Ef).
  destruct ls as [|l t]; [repeat split; [now intros []|exact L]|].
  destruct (runs 0 (l :: t)) as [|x r] eqn:Er; [discriminate|]. rewrite <- Er. cbn [bp_indices bp_adj bp_bytes].
  assert (Ea : last (runs 0 (l :: t)) 0 = sumn (l :: t)) by (now rewrite runs_last_acc). rewrite Ea. split; [|split].
  - destruct (vb_nulls b) as [v|]; [now apply stored_combine|apply stored_all_valid].
  - intros _. rewrite Es. lia.
  - now rewrite Es.
Qed.

(* ---- arrays to a block ---- *)
Definition validity_of (a : larr nat) : list bool := match la_valid a with Some v => v | None => repeat true (rows_in_array a) end.
Lemma rows_of_snd : forall a : larr nat, array_ok a -> map snd (rows_of a) = validity_of a /\ length (rows_of a) = rows_in_array a.
Proof.
  intros a H. destruct (rows_of_spec nat a H) as [o [t [E [Ef [El _]]]]]. unfold validity_of, rows_in_array. destruct H as [_ [_ H3]]. unfold rows_of in *. rewrite E in *. cbn [lens_valid length] in *.
  replace (S (length t) - 1) with (length t) by lia. split; [|exact El]. destruct (la_valid a) as [v|]; rewrite map_snd_combine; auto; rewrite diffs_length; [lia|now rewrite repeat_length].
Qed.
Lemma all_false : forall v, length (filter negb v) = length v -> v = repeat false (length v).
Proof.
  induction v as [|b v IH]; intros H; [reflexivity|]. cbn in H |- *. destruct b; cbn in H.
  - exfalso. assert (length (filter negb v) <= length v); [|lia]. clear. induction v as [|[] v IH]; cbn; lia.
  - f_equal. apply IH. lia.
Qed.
Lemma chop_nulls : forall V n (items : list V) rows, map snd rows = repeat false n -> chop rows items = repeat None n.
Proof.
  intros V. induction n as [|n IH]; intros items [|[l v] t] H; try discriminate; [reflexivity|]. cbn in H. injection H as -> H. cbn. now rewrite (IH _ t H).
Qed.
Theorem to_block_ok : forall arrs, Forall array_ok arrs -> exists rows, bpage_ok (bin_encode (to_block arrs)) rows /\ chop rows (bp_bytes (bin_encode (to_block arrs))) = strings_of arrs /\ length rows = length (strings_of arrs).
Proof.
  intros arrs H. set (R := concat (map rows_of arrs)). set (n := sumn (map rows_in_array arrs)).
  assert (LR : length R = n). { unfold R, n. clear R n. induction H as [|a t H1 H2 IH]; [reflexivity|]. cbn [map concat sumn]. now rewrite app_length, IH, (proj2 (rows_of_snd a H1)). }
  assert (SR : map snd R = flat_map validity_of arrs). { unfold R. clear R n LR. induction H as [|a t H1 H2 IH]; [reflexivity|]. cbn [map concat flat_map]. now rewrite map_app, IH, (proj1 (rows_of_snd a H1)). }
  assert (C : strings_of arrs = chop R (flat_map items_of arrs) /\ length (flat_map items_of arrs) = size R).
  { pose proof (column_chop nat [arrs]) as C. cbn [concat] in C. rewrite app_nil_r in C. specialize (C H). unfold column_lists, column_items in C. cbn [concat] in C. rewrite app_nil_r in C. rewrite flat_map_concat_map. exact C. }
  destruct C as [C1 C2].
  assert (Bok : forall v, (match v with Some v => length v = length R | None => True end) ->
    bpage_ok (bin_encode {| vb_offsets := stitch (map la_offsets arrs); vb_bytes := flat_map items_of arrs; vb_nulls := v |}) (combine (map fst R) (match v with Some v => v | None => repeat true (length R) end))).
  { intros v Hv. pose proof (bin_encode_ok {| vb_offsets := stitch (map la_offsets arrs); vb_bytes := flat_map items_of arrs; vb_nulls := v |} (map fst R)) as B. unfold block_rows in B. cbn [vb_offsets vb_bytes vb_nulls] in B. rewrite map_length in B.
    apply B; [now apply stitch_runs|exact Hv|exact C2]. }
  assert (Nok : n = 0 \/ flat_map validity_of arrs = repeat false n -> exists rows, bpage_ok (bin_encode {| vb_offsets := repeat 0 (n + 1); vb_bytes := []; vb_nulls := Some (repeat false n) |}) rows /\ chop rows (@nil nat) = strings_of arrs /\ length rows = length (strings_of arrs)).
  { intros Hn. exists (combine (repeat 0 n) (repeat false n)).
    assert (Z : forall k, runs 0 (repeat 0 k) = repeat 0 k /\ sumn (repeat 0 k) = 0) by (clear; induction k as [|k [I1 I2]]; [now split|]; cbn; now rewrite I1, I2).
    split; [|split].
    - apply (bin_encode_ok {| vb_offsets := repeat 0 (n + 1); vb_bytes := []; vb_nulls := Some (repeat false n) |} (repeat 0 n)); cbn [vb_offsets vb_nulls vb_bytes length].
      + rewrite Nat.add_1_r, (proj1 (Z n)). reflexivity.
      + now rewrite !repeat_length.
      + now rewrite (proj2 (Z n)).
    - rewrite (chop_nulls nat n) by (apply map_snd_combine; now rewrite !repeat_length). rewrite C1. symmetry. destruct Hn as [E0|Hv]; [|apply chop_nulls; now rewrite SR].
      rewrite E0. destruct R; [reflexivity|cbn in LR; lia].
    - rewrite combine_length, !repeat_length, C1, chop_length, LR. lia. }
  assert (BF : forall v p, p = bin_encode {| vb_offsets := stitch (map la_offsets arrs); vb_bytes := flat_map items_of arrs; vb_nulls := v |} -> bp_bytes p = flat_map items_of arrs).
  { intros v p ->. unfold bin_encode. cbn [vb_offsets vb_bytes vb_nulls]. destruct (ends 0 _); reflexivity. }
  assert (NB : bp_bytes (bin_encode {| vb_offsets := repeat 0 (n + 1); vb_bytes := []; vb_nulls := Some (repeat false n) |}) = []).
  { unfold bin_encode. cbn [vb_offsets vb_bytes vb_nulls]. destruct (ends 0 _); reflexivity. }
  unfold to_block. fold n. destruct (Nat.eqb_spec n 0) as [En|En].
  { rewrite NB. apply Nok. now left. }
  change (fun a : larr nat => slice (hd 0 (la_offsets a)) (last (la_offsets a) 0) (la_values a)) with (@items_of nat).
  unfold extract_nulls. change (fun a : larr nat => match la_valid a with Some v => v | None => repeat true (rows_in_array a) end) with validity_of.
  assert (LV : length (flat_map validity_of arrs) = n) by (rewrite <- SR, map_length; exact LR).
  destruct (existsb _ arrs) eqn:Ex.
  - destruct (Nat.eqb_spec (length (filter negb (flat_map validity_of arrs))) n) as [Ea|Ea].
    + rewrite NB. apply Nok. right. pose proof (all_false (flat_map validity_of arrs) ltac:(congruence)) as Af. now rewrite LV in Af.
    + eexists. split; [apply (Bok (Some (flat_map validity_of arrs))); congruence|]. rewrite (BF _ _ eq_refl). split.
      * rewrite <- SR, combine_split'. now rewrite C1.
      * rewrite <- SR, combine_split'. now rewrite C1, chop_length.
  - eexists. split; [apply (Bok None); exact Logic.I|]. rewrite (BF _ _ eq_refl).
    assert (Sv : map snd R = repeat true (length R)).
    { rewrite SR, LR. unfold n. clear -Ex. induction arrs as [|a t IH]; [reflexivity|]. cbn [existsb] in Ex. apply orb_false_iff in Ex. destruct Ex as [E1 E2]. cbn [flat_map map sumn]. rewrite IH by exact E2. unfold validity_of at 1. destruct (la_valid a); [discriminate|]. now rewrite <- repeat_app. }
    rewrite <- Sv, combine_split'. rewrite C1, chop_length. now split.
Qed.

(* ---- reading ---- *)
Lemma norm_stored : forall c l (v : bool) adj, c + l < adj -> norm adj (c + l + if v then 0 else adj) = (v, c + l).
Proof. intros c l v adj H. unfold norm. destruct v; [rewrite (proj2 (Nat.leb_gt _ _)) by lia; f_equal; lia|rewrite (proj2 (Nat.leb_le _ _)) by lia; f_equal; lia]. Qed.
Lemma ext_windows_stored : forall R adj c lst, c + size R < adj -> ext_windows adj c lst (stored adj c R) = Some (runs lst (map fst R), map snd R).
Proof.
  induction R as [|[l v] t IH]; intros adj c lst H; [reflexivity|]. rewrite size_cons in H. cbn [stored ext_windows]. rewrite norm_stored by lia. rewrite (proj2 (Nat.ltb_ge (c + l) c)) by lia.
  rewrite IH by lia. cbn [omap map fst snd runs]. replace (c + l - c + lst) with (lst + l) by lia. reflexivity.
Qed.
Lemma norm_last_stored : forall R adj o c, norm adj o = (fst (norm adj o), c) -> c + size R < adj -> snd (norm adj (last (o :: stored adj c R) 0)) = c + size R.
Proof.
  induction R as [|[l v] t IH]; intros adj o c Ho H; [cbn [stored last]; rewrite Ho; unfold size; cbn; lia|]. rewrite size_cons in *. cbn [stored]. 
  change (last (o :: (c + l + (if v then 0 else adj)) :: stored adj (c + l) t) 0) with (last ((c + l + (if v then 0 else adj)) :: stored adj (c + l) t) 0). rewrite (IH adj _ (c + l)); [lia| |lia]. now rewrite norm_stored by lia.
Qed.
Lemma slice_off_norm : forall rows adj a b, 0 < a -> a < b -> b <= length rows -> size rows < adj ->
  exists o, slice (a - 1) b (stored adj 0 rows) = o :: stored adj (size (firstn a rows)) (slice a b rows) /\ norm adj o = (fst (norm adj o), size (firstn a rows)).
Proof.
  intros rows adj a b H1 H2 H3 H4. rewrite <- (slice_app_split _ (a - 1) a b) by lia. rewrite !stored_slice. cbn [plus].
  assert (L : length (slice (a - 1) a rows) = 1) by (rewrite slice_length by lia; lia). destruct (slice (a - 1) a rows) as [|[l v] [|]] eqn:E; try discriminate.
  cbn [stored app]. eexists. split; [reflexivity|]. pose proof (size_slice (a - 1) a rows ltac:(lia)) as Q. rewrite E in Q. unfold size in Q at 2. cbn in Q. rewrite Nat.add_0_r in Q.
  pose proof (size_firstn_le a rows). rewrite norm_stored by lia. cbn [fst]. now rewrite Q.
Qed.
Definition byte_range (rows : list (nat * bool)) (r : range) : list range :=
  let s := size (firstn (fst r) rows) in let e := size (firstn (snd r) rows) in if s =? e then [] else [(s, e)].
Lemma bin_loop_later : forall rs rows adj vals used lst, size rows < adj -> Forall (fun r => 0 < fst r) rs -> Forall (fun r => fst r < snd r /\ snd r <= length rows) rs ->
  skipn used vals = flat_map (fun r => slice (fst r - 1) (snd r) (stored adj 0 rows)) rs ->
  bin_loop vals adj rs used lst = Some (flat_map (byte_range rows) rs, runs lst (map fst (wanted rows rs)), map snd (wanted rows rs)).
Proof.
  induction rs as [|[a b] rs IH]; intros rows adj vals used lst A P B E; [reflexivity|].
  inversion P as [|? ? P1 P2]; subst. inversion B as [|? ? B1 B2]; subst. cbn [fst snd] in *. destruct B1 as [B1 B1'].
  cbn [flat_map fst snd] in E. destruct (slice_off_norm rows adj a b P1 B1 B1' A) as [o [Eo Ho]]. rewrite Eo in E.
  set (R := slice a b rows) in *. set (c := size (firstn a rows)) in *.
  assert (LR : length R = b - a) by (unfold R; apply slice_length; lia).
  assert (Hc : c + size R = size (firstn b rows)) by (unfold c, R; apply size_slice; lia).
  assert (Hb : c + size R < adj) by (rewrite Hc; pose proof (size_firstn_le b rows); lia).
  assert (Lh : length (o :: stored adj c R) = b - a + 1) by (cbn [length]; rewrite stored_length; lia).
  assert (E3 : slice used (used + (b - a + 1)) vals = o :: stored adj c R).
  { unfold slice. rewrite E. replace (used + (b - a + 1) - used) with (length (o :: stored adj c R)) by lia. rewrite firstn_app, Nat.sub_diag, firstn_all, firstn_O. apply app_nil_r. }
  cbn [bin_loop]. rewrite (proj2 (Nat.eqb_neq a 0)) by lia. rewrite E3. unfold extend. rewrite (surjective_pairing (norm adj o)). cbn [hd]. rewrite Ho. cbn [fst snd].
  rewrite (ext_windows_stored R adj c lst Hb). cbn [obind]. rewrite (norm_last_stored R adj o c Ho Hb).
  rewrite (IH rows adj vals (used + (b - a + 1)) _ A P2 B2).
  - cbn [omap]. unfold wanted. cbn [flat_map fst snd]. fold R. rewrite !map_app, runs_app, runs_last_acc. unfold byte_range at 2. cbn [fst snd]. fold c. rewrite <- Hc. destruct (c =? c + size R); reflexivity.
  - rewrite <- skipn_skipn'. rewrite E. rewrite <- Lh at 1. now rewrite skipn_app, skipn_all, Nat.sub_diag.
Qed.
Lemma bin_loop_spec : forall rs rows adj, size rows < adj -> page_ranges rs (length rows) ->
  bin_loop (read_page (stored adj 0 rows) (map (fun r => (fst r - 1, snd r)) rs)) adj rs 0 0 = Some (flat_map (byte_range rows) rs, runs 0 (map fst (wanted rows rs)), map snd (wanted rows rs)).
Proof.
  intros rs rows adj A [P1 P2].
  assert (Ef : read_page (stored adj 0 rows) (map (fun r => (fst r - 1, snd r)) rs) = flat_map (fun r => slice (fst r - 1) (snd r) (stored adj 0 rows)) rs).
  { unfold read_page. clear. induction rs as [|r x IH]; [reflexivity|]. cbn. now rewrite IH. }
  rewrite Ef. destruct rs as [|[a b] rs]; [reflexivity|]. cbn [tl] in P2. destruct (Nat.eq_dec a 0) as [->|Q].
  2: { apply bin_loop_later; auto. constructor; [cbn; lia|exact P2]. }
  inversion P1 as [|? ? B1 B2]; subst. cbn [fst snd] in B1. destruct B1 as [B1 B1'].
  cbn [flat_map fst snd]. replace (0 - 1) with 0 by lia. rewrite stored_slice. unfold size at 1. cbn [firstn map sumn plus].
  assert (LR : length (slice 0 b rows) = b) by (rewrite slice_length by lia; lia).
  assert (HR : size (slice 0 b rows) = size (firstn b rows)) by (unfold slice; now rewrite Nat.sub_0_r).
  pose proof (size_firstn_le b rows) as Lb. destruct (slice 0 b rows) as [|[l v] R] eqn:ER; [cbn in LR; lia|]. rewrite size_cons in HR. cbn [length] in LR. cbn [stored plus].
  set (o := l + (if v then 0 else adj)) in *. set (rest := flat_map (fun r : nat * nat => slice (fst r - 1) (snd r) (stored adj 0 rows)) rs).
  assert (Ho : norm adj o = (v, l)) by (pose proof (norm_stored 0 l v adj) as N; cbn in N; apply N; lia).
  assert (Lh : length (o :: stored adj l R) = b) by (cbn [length]; rewrite stored_length; lia).
  assert (E3 : slice 0 b (o :: stored adj l R ++ rest) = o :: stored adj l R).
  { change (o :: stored adj l R ++ rest) with ((o :: stored adj l R) ++ rest). rewrite slice_app_l by (rewrite Lh; lia). rewrite <- Lh. apply slice_all. }
  cbn [app bin_loop]. rewrite Nat.eqb_refl, Nat.sub_0_r, E3. unfold extend. rewrite Ho. cbn [plus]. rewrite (ext_windows_stored R adj l l) by lia. cbn [omap obind].
  rewrite (norm_last_stored R adj o l) by (rewrite ?Ho; auto; lia).
  rewrite (bin_loop_later rs rows adj _ b _ A P2 B2).
  - cbn [omap]. unfold wanted. cbn [flat_map fst snd]. rewrite ER, !map_app. cbn [map fst snd runs app plus]. rewrite runs_app. rewrite last_cons, runs_last_acc.
    assert (Eb : byte_range rows (0, b) = if 0 =? l + size R then [] else [(0, l + size R)]) by (unfold byte_range; cbn [fst snd firstn]; rewrite <- HR; reflexivity). rewrite Eb. reflexivity.
  - change (o :: stored adj l R ++ rest) with ((o :: stored adj l R) ++ rest). rewrite <- Lh at 1. now rewrite skipn_app, skipn_all, Nat.sub_diag.
Qed.
Lemma chop_byte_ranges : forall V (all : list V) rows rs, Forall (fun r => fst r < snd r /\ snd r <= length rows) rs -> size rows = length all ->
  chop (wanted rows rs) (read_page all (flat_map (byte_range rows) rs)) = wanted (chop rows all) rs /\ length (read_page all (flat_map (byte_range rows) rs)) = size (wanted rows rs).
Proof.
  intros V all rows rs H S. induction H as [|[a b] rs [H1 H2] H IH]; [split; reflexivity|]. cbn [fst snd] in *. destruct IH as [I1 I2].
  unfold wanted, read_page in *. cbn [flat_map fst snd]. rewrite flat_map_app.
  assert (Eb : flat_map (fun r => slice (fst r) (snd r) all) (byte_range rows (a, b)) = slice (size (firstn a rows)) (size (firstn b rows)) all).
  { unfold byte_range. cbn [fst snd]. destruct (Nat.eqb_spec (size (firstn a rows)) (size (firstn b rows))) as [E|E]; cbn [flat_map fst snd]; [symmetry; apply slice_empty; lia|apply app_nil_r]. }
  rewrite Eb. pose proof (size_slice a b rows ltac:(lia)) as Es. pose proof (size_firstn_le b rows) as Lb.
  assert (L : length (slice (size (firstn a rows)) (size (firstn b rows)) all) = size (slice a b rows)) by (rewrite slice_length by lia; lia).
  split.
  - rewrite chop_app by exact L. rewrite I1. f_equal. symmetry. apply chop_slice. lia.
  - rewrite app_length, L, I2, size_app. reflexivity.
Qed.
Lemma runs_slice : forall ls k s n, s + n <= length ls -> slice s (s + (n + 1)) (k :: runs k ls) = (k + sumn (firstn s ls)) :: runs (k + sumn (firstn s ls)) (slice s (s + n) ls).
Proof.
  intros ls k s n H. unfold slice. rewrite runs_skipn by lia. replace (s + (n + 1) - s) with (S n) by lia. replace (s + n - s) with n by lia. cbn [firstn]. now rewrite runs_firstn.
Qed.
Lemma runs_nth : forall ls k i, i <= length ls -> nth i (k :: runs k ls) 0 = k + sumn (firstn i ls).
Proof.
  intros ls k i H. revert ls k H. induction i as [|i IH]; intros ls k H; [cbn; lia|]. destruct ls as [|l t]; [cbn in H; lia|]. cbn [runs firstn sumn].
  change (nth (S i) (k :: (k + l) :: runs (k + l) t) 0) with (nth i ((k + l) :: runs (k + l) t) 0). rewrite IH by (cbn in H; lia). lia.
Qed.
Lemma existsb_all_true : forall v, existsb negb v = false -> v = repeat true (length v).
Proof. induction v as [|[] v IH]; intros H; cbn in *; [reflexivity|now rewrite <- IH|discriminate]. Qed.
Lemma lists_between_valid : forall V os vs vs' (vals : list V), (forall i, i < length os - 1 -> nth i vs true = nth i vs' true) -> lists_between os vs vals = lists_between os vs' vals.
Proof.
  intros V os. induction os as [|a os IH]; intros vs vs' vals H; [reflexivity|]. destruct os as [|b os]; [reflexivity|].
  change (lists_between (a :: b :: os) vs vals) with ((if hd true vs then Some (slice a b vals) else None) :: lists_between (b :: os) (tl vs) vals).
  change (lists_between (a :: b :: os) vs' vals) with ((if hd true vs' then Some (slice a b vals) else None) :: lists_between (b :: os) (tl vs') vals).
  pose proof (H 0 ltac:(cbn; lia)) as H0. cbn [nth] in H0. replace (hd true vs) with (hd true vs') by (destruct vs, vs'; cbn in *; congruence). f_equal.
  apply IH. intros i Hi. specialize (H (S i) ltac:(cbn in *; lia)). destruct vs, vs'; cbn [nth tl] in *; destruct i; auto.
Qed.
Lemma bin_decode_exact : forall W bytes skip n, length bytes = size W -> skip + n <= length W ->
  let a := bin_decode {| bd_indices := 0 :: runs 0 (map fst W); bd_valid := map snd W; bd_bytes := bytes |} skip n in
  array_ok a /\ lists_of a = slice skip (skip + n) (chop W bytes).
Proof.
  intros W bytes skip n L H a. unfold a, bin_decode. cbn [bd_indices bd_valid bd_bytes]. clear a.
  rewrite runs_slice by (rewrite map_length; lia). cbn [hd plus]. rewrite !runs_nth by (rewrite map_length; lia). cbn [plus].
  assert (E1 : sumn (firstn skip (map fst W)) = size (firstn skip W)) by (rewrite firstn_map; reflexivity).
  assert (E2 : sumn (firstn (skip + n) (map fst W)) = size (firstn (skip + n) W)) by (rewrite firstn_map; reflexivity). rewrite E1, E2.
  set (c := size (firstn skip W)). rewrite slice_map. rewrite slice_map. set (R := slice skip (skip + n) W).
  pose proof (map_sub_runs (map fst R) c 0) as M. rewrite Nat.add_0_r in M. cbn [map]. rewrite Nat.sub_diag, M.
  assert (Lr : length R = n) by (unfold R; rewrite slice_length by lia; lia).
  pose proof (size_slice skip (skip + n) W ltac:(lia)) as Es. fold R in Es. fold c in Es. pose proof (size_firstn_le (skip + n) W) as Lw.
  split.
  - split; [cbn; apply sorted_runs|]. split.
    + cbn [la_offsets la_values]. rewrite last_cons, runs_last_acc, slice_length by lia. fold (size R). lia.
    + cbn [la_valid la_offsets]. destruct (existsb negb (map snd R)); [|exact Logic.I]. cbn [length]. rewrite runs_length, !map_length. lia.
  - unfold lists_of. cbn [la_offsets la_valid la_values]. rewrite (lists_between_valid _ _ _ (map snd R)).
    + rewrite lists_between_chop. cbn [skipn]. rewrite chop_slice by lia. reflexivity.
    + intros i Hi. destruct (existsb negb (map snd R)) eqn:Ex; [reflexivity|]. rewrite (existsb_all_true _ Ex). destruct i; cbn [nth]; clear; generalize (length (map snd R)); intros m; [destruct m; reflexivity|].
      revert i. induction m as [|m IHm]; intros i; [reflexivity|]. cbn. destruct i; [destruct m; reflexivity|apply IHm].
Qed.

(* C104: the strings of any ranges of a page, of which only the first may start with row 0, in any batches *)
Theorem strings_exact : forall arrs rs skip n, Forall array_ok arrs -> page_ranges rs (length (strings_of arrs)) -> skip + n <= length (wanted (strings_of arrs) rs) ->
  exists d, bin_load (bin_encode (to_block arrs)) rs = Some d /\ array_ok (bin_decode d skip n) /\ lists_of (bin_decode d skip n) = slice skip (skip + n) (wanted (strings_of arrs) rs).
Proof.
  intros arrs rs skip n H P N. destruct (to_block_ok arrs H) as [rows [[B1 [B2 B3]] [B4 B5]]]. rewrite <- B5 in P. unfold bin_load. rewrite B1. destruct rows as [|r0 rows0] eqn:Er.
  - destruct rs as [|[a b] rs]; [|destruct P as [P _]; inversion P as [|? ? Q _]; subst; cbn in Q; lia]. cbn in N. assert (skip = 0 /\ n = 0) as [-> ->] by lia. eexists. split; [reflexivity|].
    apply (bin_decode_exact [] (read_page (bp_bytes (bin_encode (to_block arrs))) []) 0 0); reflexivity.
  - rewrite <- Er in *. assert (Nr : rows <> []) by (rewrite Er; discriminate). clear Er r0 rows0. specialize (B2 Nr).
    rewrite (bin_loop_spec rs rows _ B2 P). cbn [omap]. eexists. split; [reflexivity|].
    destruct (chop_byte_ranges nat (bp_bytes (bin_encode (to_block arrs))) rows rs (proj1 P) (eq_sym B3)) as [C1 C2]. rewrite B4 in C1. rewrite <- C1 in N |- *.
    apply bin_decode_exact; [exact C2|]. now rewrite chop_length in N.
Qed.

(* ---- the column ---- *)
Lemma in_page_ordered : forall rs g n m x r e0, in_page g n rs = (x, r) -> (match rs with [] => True | (s, e) :: t => g < e /\ s < e /\ Nat.max s g >= g + e0 /\ ordered_from e t m end) -> 0 < n -> ordered_from e0 x n.
Proof.
  induction rs as [|[s e] t IH]; intros g n m x r e0 E O P; [cbn in E; injection E as <- <-; exact Logic.I|]. destruct O as [O1 [O2 [O3 O4]]]. cbn [in_page] in E.
  destruct (Nat.ltb_spec s (n + g)) as [L|L]; [|injection E as <- <-; exact Logic.I].
  rewrite (proj2 (Nat.ltb_ge e (Nat.max s g))) in E by lia.
  set (b := Nat.min (Nat.max s g - g + (e - Nat.max s g)) n) in *. assert (Hb : b = Nat.min (e - g) n) by (unfold b; lia). clearbody b. subst b.
  destruct (Nat.leb_spec e (Nat.min (e - g) n + g)) as [Q|Q].
  - destruct (in_page g n t) as [x' r'] eqn:Et. injection E as <- <-. cbn [ordered_from]. repeat split; try lia. apply (IH g n m x' r' _ Et); [|exact P].
    destruct t as [|[s2 e2] t]; [exact Logic.I|]. cbn in O4. intuition lia.
  - injection E as <- <-. cbn [ordered_from]. repeat split; lia.
Qed.
Lemma ordered_page_ranges : forall x n, ordered x n -> page_ranges x n.
Proof.
  intros x n O. unfold page_ranges, ordered in *. assert (G : forall x e0, ordered_from e0 x n -> Forall (fun r => fst r < snd r /\ snd r <= n) x /\ Forall (fun r => e0 <= fst r) x).
  { clear. induction x as [|[a b] x IH]; intros e0 O; [split; constructor|]. cbn in O. destruct O as [O1 [O2 [O3 O4]]]. destruct (IH b O4) as [I1 I2]. split; constructor; cbn; auto. eapply Forall_impl; [|exact I2]. cbn. intros; lia. }
  destruct (G x 0 O) as [G1 _]. split; [exact G1|]. destruct x as [|[a b] x]; [constructor|]. cbn in O. destruct O as [O1 [O2 [O3 O4]]]. destruct (G x b O4) as [_ G2]. cbn [tl]. eapply Forall_impl; [|exact G2]. cbn. intros; lia.
Qed.
Definition from (g m : nat) (rs : list range) : Prop := match rs with [] => True | (s, e) :: t => g < e /\ s < e /\ ordered_from e t m end.
Lemma in_page_rest : forall rs g n m x r, in_page g n rs = (x, r) -> from g m rs -> from (g + n) m r.
Proof.
  induction rs as [|[s e] t IH]; intros g n m x r E O; [cbn in E; injection E as _ <-; exact Logic.I|]. destruct O as [O1 [O2 O3]]. cbn [in_page] in E.
  destruct (Nat.ltb_spec s (n + g)) as [L|L]; [|injection E as _ <-; cbn; intuition (auto; lia)].
  rewrite (proj2 (Nat.ltb_ge e (Nat.max s g))) in E by lia.
  destruct (Nat.leb_spec e (Nat.min (Nat.max s g - g + (e - Nat.max s g)) n + g)) as [Q|Q]; [|injection E as _ <-; cbn; intuition (auto; lia)].
  destruct (in_page g n t) as [x' r'] eqn:Et. injection E as _ <-. apply (IH g n m x' r' Et). destruct t as [|[s2 e2] t]; [exact Logic.I|]. cbn in O3 |- *. intuition (auto; lia).
Qed.
Lemma schedule_ordered : forall A (pages : list (list A)) g rs jobs m, schedule g pages rs = Some jobs -> Forall (fun p => p <> []) pages ->
  (match rs with [] => True | (s, e) :: t => g < e /\ s < e /\ ordered_from e t m end) -> Forall (fun j => In (fst j) pages /\ ordered (snd j) (length (fst j))) jobs.
Proof.
  intros A. induction pages as [|p t IH]; intros g rs jobs m E N O; destruct rs as [|[s e] rs]; try (injection E as <-; constructor); [discriminate|].
  inversion N as [|? ? N1 N2]; subst. assert (Lp : 0 < length p) by (destruct p; [congruence|cbn; lia]). rewrite (schedule_cons _ _ _ _ _ rs s e eq_refl) in E. destruct O as [O1 [O2 O3]].
  assert (W : forall js, Forall (fun j => In (fst j) t /\ ordered (snd j) (length (fst j))) js -> Forall (fun j => In (fst j) (p :: t) /\ ordered (snd j) (length (fst j))) js).
  { intros js. apply Forall_impl. intros j [H1 H2]. split; [now right|exact H2]. }
  destruct (Nat.leb_spec (length p + g) s) as [L|L].
  - apply W. apply (IH _ _ _ m E N2). cbn. intuition (auto; lia).
  - destruct (in_page g (length p) ((s, e) :: rs)) as [x r] eqn:Ep. destruct (schedule (g + length p) t r) as [js|] eqn:Es; [|discriminate]. cbn [omap] in E. injection E as <-.
    constructor.
    + cbn [fst snd]. split; [now left|]. apply (in_page_ordered _ _ _ m _ _ 0 Ep); [|exact Lp]. intuition lia.
    + apply W. apply (IH _ _ _ m Es N2). apply (in_page_rest _ _ _ _ _ _ Ep). cbn. auto.
Qed.
(* every page scheduled for ranges in order satisfies the condition on ranges *)
Theorem scheduled_page_ranges : forall A (pages : list (list A)) rs, ordered rs (length (concat pages)) ->
  exists jobs, schedule 0 (page_schedulers pages) rs = Some jobs /\ Forall (fun j => page_ranges (snd j) (length (fst j))) jobs /\
    flat_map (fun j => wanted (fst j) (snd j)) jobs = wanted (concat pages) rs.
Proof.
  intros A pages rs O. pose proof (read_exact A pages rs (ordered_ascending _ _ _ O)) as R. unfold read_column in R. destruct (schedule 0 (page_schedulers pages) rs) as [jobs|] eqn:E; [|discriminate].
  exists jobs. split; [reflexivity|]. cbn [omap] in R. injection R as R. split; [|exact R].
  assert (F : Forall (fun j => In (fst j) (page_schedulers pages) /\ ordered (snd j) (length (fst j))) jobs).
  { apply (schedule_ordered A _ _ _ _ (length (concat pages)) E (page_schedulers_ne A pages)). destruct rs as [|[s e] t]; [exact Logic.I|]. cbn in O. intuition lia. }
  eapply Forall_impl; [|exact F]. intros j [_ H]. now apply ordered_page_ranges.
Qed.

(* a column of pages of strings: for ranges in order, each page is loaded and gives its rows, and these are the rows asked for *)
Theorem strings_column_exact : forall groups rs, Forall (Forall array_ok) groups -> ordered rs (length (strings_of (concat groups))) ->
  exists jobs, schedule 0 (page_schedulers (map strings_of groups)) rs = Some jobs /\
    Forall (fun j => exists g d, In g groups /\ strings_of g = fst j /\ bin_load (bin_encode (to_block g)) (snd j) = Some d /\
      lists_of (bin_decode d 0 (length (wanted (fst j) (snd j)))) = wanted (fst j) (snd j)) jobs /\
    flat_map (fun j => wanted (fst j) (snd j)) jobs = wanted (strings_of (concat groups)) rs.
Proof.
  intros groups rs H O.
  assert (E : strings_of (concat groups) = concat (map strings_of groups)).
  { clear. induction groups as [|g t IH]; [reflexivity|]. cbn [concat map]. rewrite <- IH. unfold strings_of. now rewrite map_app, concat_app. }
  rewrite E in *. pose proof (read_exact _ (map strings_of groups) rs (ordered_ascending _ _ _ O)) as R. unfold read_column in R.
  destruct (schedule 0 (page_schedulers (map strings_of groups)) rs) as [jobs|] eqn:Es; [|discriminate]. exists jobs. split; [reflexivity|]. cbn [omap] in R. injection R as R. split; [|exact R].
  assert (F : Forall (fun j => In (fst j) (page_schedulers (map strings_of groups)) /\ ordered (snd j) (length (fst j))) jobs).
  { apply (schedule_ordered _ _ _ _ _ (length (concat (map strings_of groups))) Es (page_schedulers_ne _ _)). destruct rs as [|[s e] t]; [exact Logic.I|]. cbn in O. intuition (auto; lia). }
  eapply Forall_impl; [|exact F]. intros [p x] [H1 H2]. cbn [fst snd] in *. unfold page_schedulers in H1. apply filter_In in H1. destruct H1 as [H1 _]. apply in_map_iff in H1. destruct H1 as [g [<- Hg]].
  destruct (strings_exact g x 0 (length (wanted (strings_of g) x))) as [d [D1 [_ D2]]]; [now apply (proj1 (Forall_forall _ _) H)|now apply ordered_page_ranges|lia|].
  exists g, d. split; [exact Hg|]. split; [reflexivity|]. split; [exact D1|]. rewrite D2. apply slice_all.
Qed.

(* ---- a case that meets the hypotheses ---- *)
Definition sa1 : larr nat := {| la_offsets := [1; 3; 3; 6]; la_valid := Some [true; false; true]; la_values := [9; 97; 98; 99; 100; 101; 7] |}.
Definition sa2 : larr nat := {| la_offsets := [0; 0; 2]; la_valid := None; la_values := [120; 121] |}.
Example strings_exact_met : exists d, bin_load (bin_encode (to_block [sa1; sa2])) [(0, 2); (3, 5)] = Some d /\ lists_of (bin_decode d 1 3) = [None; Some []; Some [120; 121]].
Proof.
  destruct (strings_exact [sa1; sa2] [(0, 2); (3, 5)] 1 3) as [d [E1 [_ E3]]].
  - repeat constructor; cbn; lia.
  - split; repeat constructor; cbn; lia.
  - cbn. lia.
  - exists d. split; [exact E1|]. rewrite E3. reflexivity.
Qed.

(* the first row asked for twice, which FileFragment::take allows: later rows are lost *)
Theorem strings_duplicate_refuted : exists arrs rs d, Forall array_ok arrs /\ Forall (fun r => fst r < snd r /\ snd r <= length (strings_of arrs)) rs /\ ascending rs (length (strings_of arrs)) /\
  wanted (strings_of arrs) rs = [Some [97]; Some [97]; Some [98; 99]] /\ bin_load (bin_encode (to_block arrs)) rs = Some d /\
  lists_of (bin_decode d 0 3) = [Some [97]; Some []; Some []].
Proof.
  exists [{| la_offsets := [0; 1; 3]; la_valid := None; la_values := [97; 98; 99] |}], [(0, 1); (0, 1); (1, 2)]. eexists. split; [repeat constructor; cbn; lia|]. split; [repeat constructor|]. split; [cbn; lia|]. split; [reflexivity|]. split; reflexivity.
Qed.
