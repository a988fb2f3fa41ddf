(* Lists of file format 2.0 are read as they were written (C103): reading and writing. *)
From Coq Require Import List Arith Bool Lia.
From Verif Require Import Lib PageModel PageProofs ListEncModel ListEncProofs.
Import ListNotations.
Local Open Scope nat_scope.

(* ---- chopping items into lists ---- *)
Lemma chop_length : forall V rows (items : list V), length (chop rows items) = length rows.
Proof. induction rows as [|[l v] t IH]; intros; cbn; auto. Qed.
Lemma chop_app : forall V r1 r2 (i1 i2 : list V), length i1 = size r1 -> chop (r1 ++ r2) (i1 ++ i2) = chop r1 i1 ++ chop r2 i2.
Proof.
  induction r1 as [|[l v] r1 IH]; intros r2 i1 i2 H; [destruct i1; [reflexivity|discriminate]|]. rewrite size_cons in H. cbn [app chop].
  rewrite firstn_app. replace (l - length i1) with 0 by lia. rewrite firstn_O, app_nil_r, skipn_app. replace (l - length i1) with 0 by lia. rewrite skipn_O, IH; [reflexivity|]. rewrite skipn_length. lia.
Qed.
Lemma chop_skipn : forall V n rows (items : list V), skipn n (chop rows items) = chop (skipn n rows) (skipn (size (firstn n rows)) items).
Proof.
  induction n as [|n IH]; intros rows items; [reflexivity|]. destruct rows as [|[l v] t]; [reflexivity|]. cbn [chop skipn firstn]. rewrite IH, size_cons, skipn_skipn'. reflexivity.
Qed.
Lemma chop_firstn : forall V n rows (items : list V), firstn n (chop rows items) = chop (firstn n rows) items.
Proof. induction n as [|n IH]; intros rows items; [reflexivity|]. destruct rows as [|[l v] t]; [reflexivity|]. cbn. now rewrite IH. Qed.
Lemma chop_enough : forall V rows (items : list V) n, size rows <= n -> chop rows (firstn n items) = chop rows items.
Proof.
  induction rows as [|[l v] t IH]; intros items n H; [reflexivity|]. rewrite size_cons in H. cbn [chop]. rewrite firstn_firstn. replace (Nat.min l n) with l by lia.
  rewrite skipn_firstn_comm, IH by lia. reflexivity.
Qed.
Lemma chop_slice : forall V rows (items : list V) a b, a <= b -> slice a b (chop rows items) = chop (slice a b rows) (slice (size (firstn a rows)) (size (firstn b rows)) items).
Proof.
  intros V rows items a b H. unfold slice. rewrite chop_skipn, chop_firstn, chop_enough; [reflexivity|]. pose proof (size_slice a b rows H) as E. unfold slice in E. lia.
Qed.
Lemma lists_between_chop : forall V rows (items : list V) k, lists_between (k :: runs k (map fst rows)) (map snd rows) items = chop rows (skipn k items).
Proof.
  induction rows as [|[l v] t IH]; intros items k; [reflexivity|]. cbn [map fst snd runs chop].
  change (lists_between (k :: (k + l) :: runs (k + l) (map fst t)) (v :: map snd t) items) with ((if v then Some (slice k (k + l) items) else None) :: lists_between ((k + l) :: runs (k + l) (map fst t)) (map snd t) items).
  rewrite IH, skipn_skipn'. unfold slice. replace (k + l - k) with l by lia. reflexivity.
Qed.
Lemma map_sub_runs : forall ls k c, map (fun o => o - k) (runs (k + c) ls) = runs c ls.
Proof. induction ls as [|l t IH]; intros k c; [reflexivity|]. cbn [runs map]. rewrite <- Nat.add_assoc, IH. f_equal. lia. Qed.
Lemma dec_lists_chop : forall V k rows (items : list V), dec_lists {| ld_offsets := k :: runs k (map fst rows); ld_valid := map snd rows; ld_items := items |} = chop rows items.
Proof.
  intros V k rows items. unfold dec_lists. cbn [ld_offsets ld_valid ld_items hd map]. rewrite Nat.sub_diag. pose proof (map_sub_runs (map fst rows) k 0) as E. rewrite Nat.add_0_r in E. rewrite E.
  rewrite lists_between_chop. reflexivity.
Qed.
Lemma sorted_runs : forall ls k, sorted_from k (runs k ls).
Proof. induction ls as [|l t IH]; intros k; [exact Logic.I|]. cbn. split; [lia|apply IH]. Qed.
Lemma dec_ok_runs : forall V k rows (items : list V), length items = size rows -> dec_ok {| ld_offsets := k :: runs k (map fst rows); ld_valid := map snd rows; ld_items := items |}.
Proof.
  intros V k rows items H. unfold dec_ok. cbn [ld_offsets ld_valid ld_items]. split; [apply sorted_runs|]. split; [|now rewrite runs_length, !map_length].
  rewrite last_cons, runs_last_acc, H. unfold size. lia.
Qed.
Lemma combine_split' : forall A B (l : list (A * B)), combine (map fst l) (map snd l) = l.
Proof. induction l as [|[a b] l IH]; [reflexivity|]. cbn. now rewrite IH. Qed.
Lemma map_fst_combine : forall A B (a : list A) (b : list B), length a = length b -> map fst (combine a b) = a.
Proof. induction a as [|x a IH]; intros [|y b] H; try discriminate; [reflexivity|]. cbn. f_equal. apply IH. now injection H. Qed.
Lemma map_snd_combine : forall A B (a : list A) (b : list B), length a = length b -> map snd (combine a b) = b.
Proof. induction a as [|x a IH]; intros [|y b] H; try discriminate; [reflexivity|]. cbn. f_equal. apply IH. now injection H. Qed.
(* every decoder is such a state *)
Lemma dec_ok_rows : forall V (d : ldec V), dec_ok d -> exists k rows, d = {| ld_offsets := k :: runs k (map fst rows); ld_valid := map snd rows; ld_items := ld_items d |} /\ length (ld_items d) = size rows.
Proof.
  intros V [[|o t] vs items] H; cbn in H; [easy|]. destruct H as [H1 [H2 H3]]. exists o, (combine (diffs o t) vs).
  assert (L : length (diffs o t) = length vs) by (now rewrite diffs_length).
  rewrite map_fst_combine, map_snd_combine by exact L. rewrite runs_diffs by exact H1. split; [reflexivity|]. cbn [ld_items].
  unfold size. rewrite map_fst_combine by exact L. pose proof (sumn_diffs t o H1). change (last (o :: t) 0 - o = length items) in H2. rewrite last_cons in H2. lia.
Qed.

(* ---- the items of a page's ranges ---- *)
Lemma item_ranges_ordered : forall x rows io e0 m, ordered_from e0 x (length rows) -> io + size rows <= m -> ordered_from (size (firstn e0 rows) + io) (flat_map (item_range rows io) x) m.
Proof.
  induction x as [|[a b] x IH]; intros rows io e0 m O H; [exact Logic.I|]. cbn in O. destruct O as [O1 [O2 [O3 O4]]]. specialize (IH rows io b m O4 H).
  cbn [flat_map]. unfold item_range at 1. cbn [fst snd]. pose proof (size_slice e0 a rows O1). pose proof (size_firstn_le b rows).
  destruct (Nat.ltb_spec (size (firstn a rows)) (size (firstn b rows))) as [L|L]; cbn [app].
  - cbn [ordered_from]. repeat split; try lia. exact IH.
  - apply (ordered_from_weak _ (size (firstn b rows) + io)); [|exact IH]. pose proof (size_slice a b rows ltac:(lia)). lia.
Qed.
Lemma wanted_app : forall A (all : list A) x y, wanted all (x ++ y) = wanted all x ++ wanted all y.
Proof. intros. unfold wanted. apply flat_map_app. Qed.
Lemma wanted_item_ranges : forall V (all : list V) rows io x, wanted all (flat_map (item_range rows io) x) = flat_map (fun r => slice (io + size (firstn (fst r) rows)) (io + size (firstn (snd r) rows)) all) x.
Proof.
  intros V all rows io x. induction x as [|[a b] x IH]; [reflexivity|]. cbn [flat_map]. rewrite wanted_app, IH. f_equal. unfold item_range. cbn [fst snd].
  destruct (Nat.ltb_spec (size (firstn a rows)) (size (firstn b rows))) as [L|L].
  - unfold wanted. cbn [flat_map fst snd]. rewrite app_nil_r. f_equal; lia.
  - cbn. symmetry. apply slice_empty. lia.
Qed.
(* the lists of the ranges of a page *)
Lemma chop_pieces : forall V (all : list V) rows io x e0, ordered_from e0 x (length rows) -> io + size rows <= length all ->
  chop (wanted rows x) (wanted all (flat_map (item_range rows io) x)) = wanted (chop rows (slice io (io + size rows) all)) x /\
  length (wanted all (flat_map (item_range rows io) x)) = size (wanted rows x).
Proof.
  intros V all rows io x. induction x as [|[a b] x IH]; intros e0 O H; [split; reflexivity|]. cbn in O. destruct O as [O1 [O2 [O3 O4]]]. destruct (IH b O4 H) as [I1 I2].
  rewrite wanted_item_ranges in *. unfold wanted in *. cbn [flat_map fst snd].
  pose proof (size_slice a b rows ltac:(lia)) as Es. pose proof (size_firstn_le b rows) as Eb.
  assert (L : length (slice (io + size (firstn a rows)) (io + size (firstn b rows)) all) = size (slice a b rows)) by (rewrite slice_length by lia; lia).
  split.
  - rewrite chop_app by exact L. rewrite I1. f_equal. rewrite chop_slice by lia. f_equal. rewrite slice_slice by lia. reflexivity.
  - rewrite app_length, L, I2, size_app. reflexivity.
Qed.

(* ---- loading ---- *)
Lemma read_page_length : forall (offs : list nat) x, ordered x (length offs) -> length (read_page offs (map off_piece x)) = lens_of x.
Proof.
  intros offs x. unfold ordered. generalize 0 at 1. induction x as [|[a b] x IH]; intros e0 O; [reflexivity|]. cbn in O. destruct O as [O1 [O2 [O3 O4]]].
  unfold read_page, lens_of in *. cbn [map flat_map sumn fst snd off_piece]. rewrite app_length, (IH b O4), slice_length by lia. reflexivity.
Qed.
Lemma load_page_spec : forall V (all : list V) read p rows io x, exact_reader all read -> page_ok p rows -> ordered x (length rows) -> x <> [] -> io + size rows <= length all ->
  exists d, load_page read (read_page (lp_offsets p) (map off_piece x)) (map (req p io) x) = Some d /\ dec_ok d /\ dec_lists d = wanted (chop rows (slice io (io + size rows) all)) x.
Proof.
  intros V all read p rows io x R P O N H. destruct (chop_pieces V all rows io x 0 O H) as [C1 C2].
  exists {| ld_offsets := 0 :: runs 0 (map fst (wanted rows x)); ld_valid := map snd (wanted rows x); ld_items := wanted all (flat_map (item_range rows io) x) |}.
  split; [|split; [now apply dec_ok_runs|now rewrite dec_lists_chop]].
  unfold load_page. destruct (map (req p io) x) as [|q qs] eqn:Eq; [destruct x; [congruence|discriminate]|].
  assert (Ea : lr_adj q = lp_adj p) by (destruct x; [discriminate|cbn in Eq; injection Eq as <- _; reflexivity]). rewrite Ea, <- Eq. unfold read_page.
  rewrite (decode_offsets_spec x p io rows P O). cbn [obind]. destruct (flat_map (item_range rows io) x) as [|r0 rs0] eqn:Er; [reflexivity|]. rewrite <- Er.
  rewrite R; [reflexivity|]. unfold ordered. apply (ordered_from_weak _ (size (firstn 0 rows) + io)); [lia|]. now apply item_ranges_ordered.
Qed.
Lemma load_pages_spec : forall V (all : list V) read, exact_reader all read -> forall ps rowss, Forall2 page_ok ps rowss -> forall pre rs,
  full ps -> size (pre ++ concat rowss) = length all -> ordered_from (length pre) rs (length (pre ++ concat rowss)) ->
  exists ds, load_pages read (jobs_of (length pre) ps rs) (reqs (length pre) (size pre) ps rs) = Some ds /\ Forall dec_ok ds /\ concat (map dec_lists ds) = wanted (chop (pre ++ concat rowss) all) rs.
Proof.
  intros V all read R ps rowss H. induction H as [|p rows ps rowss P H IH]; intros pre rs F S O.
  - exists []. split; [reflexivity|]. split; [constructor|]. destruct rs as [|[s e] rs]; [reflexivity|]. cbn in O. rewrite app_nil_r in O. lia.
  - inversion F as [|? ? F1 F2]; subst. assert (Ln : length (lp_offsets p) = length rows) by (destruct P as [-> _]; apply stored_length).
    cbn [jobs_of reqs concat]. rewrite Ln in *.
    destruct (split_page (length pre) (length rows) rs) as [x r] eqn:E.
    assert (Eall : pre ++ rows ++ concat rowss = (pre ++ rows) ++ concat rowss) by apply app_assoc. cbn [concat] in S, O. rewrite Eall in *.
    destruct (split_page_spec rs _ _ _ x r E O) as [X1 [X2 X3]].
    assert (El : length (pre ++ rows) = length pre + length rows) by apply app_length. assert (Ez : size (pre ++ rows) = size pre + lp_items p) by (rewrite size_app; destruct P as [_ [-> _]]; reflexivity).
    destruct (IH (pre ++ rows) r F2 S) as [ds [D1 [D2 D3]]]; [now rewrite El|]. rewrite El, Ez in D1.
    assert (W : wanted (chop rows (slice (size pre) (size pre + size rows) all)) x ++ wanted (chop ((pre ++ rows) ++ concat rowss) all) r = wanted (chop ((pre ++ rows) ++ concat rowss) all) rs).
    { rewrite <- (X3 _ (chop ((pre ++ rows) ++ concat rowss) all)) by (rewrite chop_length, !app_length; lia). f_equal. f_equal. rewrite chop_slice by lia.
      f_equal.
      - rewrite <- app_assoc. rewrite slice_app_r by lia. replace (length pre - length pre) with 0 by lia. replace (length pre + length rows - length pre) with (length rows) by lia. rewrite slice_app_l by lia. symmetry. apply slice_all.
      - assert (E1 : firstn (length pre) ((pre ++ rows) ++ concat rowss) = pre) by (rewrite <- app_assoc, firstn_app, Nat.sub_diag, firstn_all, firstn_O; apply app_nil_r).
        assert (E2 : firstn (length pre + length rows) ((pre ++ rows) ++ concat rowss) = pre ++ rows) by (rewrite <- El, firstn_app, Nat.sub_diag, firstn_all, firstn_O; apply app_nil_r).
        rewrite E1, E2, size_app. reflexivity. }
    destruct x as [|r0 x0] eqn:Ex.
    + cbn [map app]. exists ds. split; [exact D1|]. split; [exact D2|]. rewrite D3. exact W.
    + rewrite <- Ex in *. assert (Nx : x <> []) by (rewrite Ex; discriminate). clear Ex r0 x0.
      assert (Sz : size pre + size rows <= length all) by (rewrite <- S, !size_app; lia).
      destruct (load_page_spec V all read p rows (size pre) x R P X1 Nx Sz) as [d [L1 [L2 L3]]].
      exists (d :: ds). split; [|split; [now constructor|cbn [map concat]; rewrite L3, D3; exact W]].
      cbn [app load_pages]. rewrite read_page_length by (now rewrite Ln). rewrite (next_requests_spec x p (size pre) _ (length rows) X1). cbn [obind]. rewrite L1. cbn [obind].
      rewrite D1. reflexivity.
Qed.
Lemma rows_in_length : forall ps rowss, Forall2 page_ok ps rowss -> rows_in ps = length (concat rowss).
Proof. intros ps rowss H. induction H as [|p rows ps rowss P H IH]; [reflexivity|]. unfold rows_in in *. cbn [map sumn concat]. rewrite IH, app_length. destruct P as [-> _]. now rewrite stored_length. Qed.
Lemma load_lists_spec : forall V (all : list V) read ps rowss rs, exact_reader all read -> Forall2 page_ok (offset_pages ps) rowss -> size (concat rowss) = length all -> ordered rs (length (concat rowss)) ->
  exists ds, load_lists ps read rs = Some ds /\ Forall dec_ok ds /\ concat (map dec_lists ds) = wanted (chop (concat rowss) all) rs.
Proof.
  intros V all read ps rowss rs R P S O. unfold load_lists.
  assert (F : full (offset_pages ps)). { apply Forall_forall. intros p H. apply filter_In in H. apply Nat.ltb_lt. apply H. }
  assert (O' : ordered_from 0 rs (0 + rows_in (offset_pages ps))) by (rewrite (rows_in_length _ _ P); exact O).
  rewrite (list_requests_spec (offset_pages ps) 0 0 rs F O'). cbn [obind].
  rewrite (schedule_jobs (offset_pages ps) 0 rs _ F O').
  - cbn [obind]. exact (load_pages_spec V all read R _ _ P [] rs F S O).
  - destruct rs as [|[s e] rs]; [exact Logic.I|]. cbn [map]. unfold off_range at 1. cbn [same_but_head fst snd]. split; [reflexivity|]. split; [reflexivity|].
    destruct (Nat.eqb_spec s 0) as [->|Q]; [|reflexivity]. destruct (is_start 0 (offset_pages ps) 0); lia.
Qed.

(* ---- (E) writing ---- *)
Definition lens_valid (os : list nat) (v : option (list bool)) : list (nat * bool) :=
  match os with [] => [] | o :: t => combine (diffs o t) (match v with Some vs => vs | None => repeat true (length t) end) end.
Definition rows_of {V} (a : larr V) : list (nat * bool) := lens_valid (la_offsets a) (la_valid a).
Lemma lens_valid_fst : forall o t v, (match v with Some vs => length vs = length t | None => True end) -> map fst (lens_valid (o :: t) v) = diffs o t.
Proof. intros o t v H. cbn. apply map_fst_combine. rewrite diffs_length. destruct v; [auto|now rewrite repeat_length]. Qed.
Lemma rows_of_spec : forall V (a : larr V), array_ok a ->
  exists o t, la_offsets a = o :: t /\ map fst (rows_of a) = diffs o t /\ length (rows_of a) = length t /\ size (rows_of a) = last t o - o /\ sorted_from o t /\ o <= last t o.
Proof.
  intros V [[|o t] v vals] [H1 [H2 H3]]; cbn [la_offsets la_valid la_values] in *; [easy|]. exists o, t. unfold rows_of. cbn [la_offsets la_valid].
  assert (Hv : match v with Some vs => length vs = length t | None => True end) by (destruct v; [cbn in H3; lia|exact Logic.I]).
  pose proof (lens_valid_fst o t v Hv) as E. pose proof (sumn_diffs t o H1). split; [reflexivity|]. split; [exact E|]. split.
  - rewrite <- (map_length fst), E. apply diffs_length.
  - split; [unfold size; rewrite E; lia|]. split; [exact H1|lia].
Qed.
Lemma span_size : forall V (a : larr V), array_ok a -> span a = size (rows_of a).
Proof. intros V a H. destruct (rows_of_spec V a H) as [o [t [E [_ [_ [S _]]]]]]. unfold span. rewrite E, S. cbn [hd]. now rewrite last_cons. Qed.
Lemma items_of_length : forall V (a : larr V), array_ok a -> length (items_of a) = size (rows_of a).
Proof.
  intros V a H. rewrite <- span_size by exact H. unfold items_of, span. destruct H as [_ [H _]]. apply slice_length. exact H.
Qed.
Lemma lists_of_chop : forall V (a : larr V), array_ok a -> lists_of a = chop (rows_of a) (items_of a).
Proof.
  intros V a H. destruct (rows_of_spec V a H) as [o [t [E [Ef [El [Es [So Le]]]]]]].
  assert (Ev : forall vs (rows : list (nat * bool)) os, length os = length rows -> (forall i, i < length rows -> nth i vs true = nth i (map snd rows) true) ->
     forall k, lists_between (k :: os) vs (la_values a) = lists_between (k :: os) (map snd rows) (la_values a)).
  { clear. intros vs rows. revert vs. induction rows as [|[l v] t IH]; intros vs os L N k; [destruct os; [reflexivity|discriminate]|]. destruct os as [|b os]; [discriminate|].
    change (lists_between (k :: b :: os) vs (la_values a)) with ((if hd true vs then Some (slice k b (la_values a)) else None) :: lists_between (b :: os) (tl vs) (la_values a)).
    change (lists_between (k :: b :: os) (map snd ((l, v) :: t)) (la_values a)) with ((if v then Some (slice k b (la_values a)) else None) :: lists_between (b :: os) (map snd t) (la_values a)).
    f_equal. - specialize (N 0 ltac:(cbn; lia)). cbn [nth map snd] in N. destruct vs; cbn [hd nth] in *; now subst v.
    - apply IH; [now injection L|]. intros i Hi. specialize (N (S i) ltac:(cbn; lia)). cbn in N. rewrite <- N. now destruct vs, i. }
  unfold lists_of. rewrite E. rewrite (Ev _ (rows_of a) t).
  - rewrite <- (runs_diffs t o So) at 1. rewrite <- Ef, lists_between_chop. unfold items_of. rewrite E. cbn [hd]. rewrite last_cons. unfold slice. rewrite chop_enough; [reflexivity|]. lia.
  - now rewrite El.
  - intros i Hi. destruct H as [_ [_ H3]]. unfold rows_of in *. rewrite E in *. destruct (la_valid a) as [vs|]; cbn [lens_valid].
    + cbn in H3. rewrite map_snd_combine; [reflexivity|]. rewrite diffs_length. lia.
    + rewrite map_snd_combine by (now rewrite diffs_length, repeat_length). destruct i; cbn [nth]; [destruct t; [cbn in Hi; lia|reflexivity]|]. rewrite El in Hi. clear -Hi. symmetry. revert i Hi. generalize (length t). intros n i Hi. destruct n as [|n]; [lia|]. cbn. revert i Hi. induction n as [|n IHn]; intros i Hi; [lia|]. destruct i; [reflexivity|]. cbn. apply IHn. lia.
Qed.
Lemma extend_stored : forall V (a : larr V) base adj, array_ok a -> extend_offsets a base adj = stored adj base (rows_of a).
Proof.
  intros V a base adj H. destruct (rows_of_spec V a H) as [o [t [E [Ef [El [Es [So Le]]]]]]]. unfold extend_offsets, rows_of in *. rewrite E in *. cbn [hd tl lens_valid] in *.
  assert (G : forall t' vs b prev, sorted_from prev t' -> o <= prev -> length vs = length t' -> b + o = base + prev ->
    map (fun p : nat * bool => fst p + base - o + if snd p then 0 else adj) (combine t' vs) = stored adj b (combine (diffs prev t') vs)).
  { clear. induction t' as [|x t' IH]; intros vs b prev S L Lv B; [reflexivity|]. destruct vs as [|v vs]; [discriminate|]. cbn in S. destruct S as [S1 S2]. cbn [diffs combine map stored fst snd].
    rewrite (IH vs (b + (x - prev)) x S2) by (cbn in Lv; lia). f_equal. lia. }
  unfold validity. destruct H as [_ [_ H3]]. rewrite E in H3. destruct (la_valid a) as [[|v vs]|].
  - destruct t; [reflexivity|cbn in H3; lia].
  - apply G; auto; cbn in *; lia.
  - rewrite <- (G t (repeat true (length t)) base o So) by (auto; rewrite repeat_length; auto). clear. induction t as [|x t IH]; [reflexivity|]. cbn [map combine length repeat fst snd]. rewrite IH. f_equal. lia.
Qed.
Lemma stored_last_mod : forall rows adj, size rows < adj -> last (stored adj 0 rows) 0 mod adj = size rows.
Proof.
  intros rows adj H. destruct rows as [|r rows]; [cbn; apply Nat.mod_small; lia|].
  assert (G : forall t adj c d, c + size t < adj -> d mod adj = c -> last (stored adj c t) d mod adj = c + size t).
  { clear. induction t as [|[l v] t IH]; intros adj c d H D; [unfold size; cbn; lia|]. rewrite size_cons in *. cbn [stored]. rewrite last_cons. rewrite (IH adj (c + l)); [lia|lia|apply mod_stored; lia]. }
  apply (G (r :: rows) adj 0 0); [lia|]. apply Nat.mod_small. lia.
Qed.
Theorem encode_page_ok : forall V (arrs : list (larr V)), Forall array_ok arrs -> page_ok (encode_page arrs) (concat (map rows_of arrs)).
Proof.
  intros V arrs H. unfold page_ok, encode_page. cbn [lp_offsets lp_adj lp_items]. set (adj := sumn (map span arrs) + 1).
  assert (Es : size (concat (map rows_of arrs)) = sumn (map span arrs)). { clear adj. induction H as [|a t H1 H2 IH]; [reflexivity|]. cbn [map concat sumn]. now rewrite size_app, IH, span_size. }
  split; [|split; [exact Es|lia]].
  unfold encode_offsets.
  assert (G : forall done, size (done ++ concat (map rows_of arrs)) < adj -> fold_left (fun dest a => dest ++ extend_offsets a (last dest 0 mod adj) adj) arrs (stored adj 0 done) = stored adj 0 (done ++ concat (map rows_of arrs))).
  { clear Es. clearbody adj. induction H as [|a t H1 H2 IH]; intros done L; [cbn; now rewrite app_nil_r|]. cbn [fold_left map concat] in *. rewrite app_assoc in L |- *.
    rewrite <- IH by exact L. f_equal. rewrite extend_stored by exact H1. rewrite stored_app. f_equal. f_equal. rewrite stored_last_mod; [reflexivity|]. rewrite !size_app in L. lia. }
  exact (G [] ltac:(cbn [app]; unfold adj; lia)).
Qed.

(* ---- what was written ---- *)
Definition column_lists {V} (groups : list (list (larr V))) : list (option (list V)) := concat (map lists_of (concat groups)).
Definition column_items {V} (groups : list (list (larr V))) : list V := concat (map items_of (concat groups)).
Lemma column_chop : forall V (groups : list (list (larr V))), Forall array_ok (concat groups) -> column_lists groups = chop (concat (map rows_of (concat groups))) (column_items groups) /\ length (column_items groups) = size (concat (map rows_of (concat groups))).
Proof.
  intros V groups H. unfold column_lists, column_items. generalize dependent (concat groups). intros arrs H. induction H as [|a t H1 H2 [I1 I2]]; [split; reflexivity|]. cbn [map concat]. split.
  - rewrite chop_app by (now apply items_of_length). now rewrite I1, lists_of_chop.
  - now rewrite app_length, size_app, items_of_length, I2.
Qed.
Lemma pages_ok : forall V (groups : list (list (larr V))), Forall array_ok (concat groups) ->
  exists rowss, Forall2 page_ok (offset_pages (map encode_page groups)) rowss /\ concat rowss = concat (map rows_of (concat groups)).
Proof.
  intros V groups H. induction groups as [|g t IH]; [exists []; split; [constructor|reflexivity]|]. cbn [concat] in H. apply Forall_app in H. destruct H as [H1 H2]. destruct (IH H2) as [rowss [R1 R2]].
  pose proof (encode_page_ok V g H1) as P. cbn [map concat]. rewrite map_app, concat_app, <- R2.
  unfold offset_pages in *. cbn [filter]. destruct (Nat.ltb_spec 0 (length (lp_offsets (encode_page g)))) as [L|L].
  - exists (concat (map rows_of g) :: rowss). split; [now constructor|reflexivity].
  - exists rowss. split; [exact R1|]. destruct P as [P _]. rewrite P, stored_length in L. destruct (concat (map rows_of g)); [reflexivity|cbn in L; lia].
Qed.

(* C103: a column of lists is read as it was written *)
Theorem lists_exact : forall V (groups : list (list (larr V))) read, Forall array_ok (concat groups) -> exact_reader (column_items groups) read ->
  exact_reader (column_lists groups) (read_lists (map encode_page groups) read).
Proof.
  intros V groups read H R rs O. destruct (column_chop V groups H) as [C1 C2]. destruct (pages_ok V groups H) as [rowss [P1 P2]].
  assert (L : length (column_lists groups) = length (concat rowss)) by (rewrite C1, chop_length, P2; reflexivity). rewrite L in O.
  destruct (load_lists_spec V (column_items groups) read (map encode_page groups) rowss rs R P1) as [ds [D1 [_ D3]]]; [now rewrite P2|exact O|].
  unfold read_lists. rewrite D1. cbn [omap]. now rewrite D3, C1, P2.
Qed.
(* and its decoders can be drained *)
Theorem lists_decoders : forall V (groups : list (list (larr V))) read rs, Forall array_ok (concat groups) -> exact_reader (column_items groups) read -> ordered rs (length (column_lists groups)) ->
  exists ds, load_lists (map encode_page groups) read rs = Some ds /\ Forall dec_ok ds.
Proof.
  intros V groups read rs H R O. destruct (column_chop V groups H) as [C1 C2]. destruct (pages_ok V groups H) as [rowss [P1 P2]].
  assert (L : length (column_lists groups) = length (concat rowss)) by (rewrite C1, chop_length, P2; reflexivity). rewrite L in O.
  destruct (load_lists_spec V (column_items groups) read (map encode_page groups) rowss rs R P1) as [ds [D1 [D2 _]]]; [now rewrite P2|exact O|]. eauto.
Qed.
(* lists of primitive values *)
Theorem primitive_reader : forall V (pages : list (list V)), exact_reader (concat pages) (read_column pages).
Proof. intros V pages rs O. apply read_exact. now apply ordered_ascending. Qed.
Theorem lists_of_values_exact : forall V (groups : list (list (larr V))) (pages : list (list V)) rs, Forall array_ok (concat groups) -> concat pages = column_items groups -> ordered rs (length (column_lists groups)) ->
  read_lists (map encode_page groups) (read_column pages) rs = Some (wanted (column_lists groups) rs).
Proof. intros V groups pages rs H E O. apply lists_exact; auto. rewrite <- E. apply primitive_reader. Qed.
(* lists of lists *)
Theorem lists_of_lists_exact : forall V (outer : list (list (larr (option (list V))))) (inner : list (list (larr V))) (pages : list (list V)) rs,
  Forall array_ok (concat outer) -> Forall array_ok (concat inner) -> column_items outer = column_lists inner -> concat pages = column_items inner -> ordered rs (length (column_lists outer)) ->
  read_lists (map encode_page outer) (read_lists (map encode_page inner) (read_column pages)) rs = Some (wanted (column_lists outer) rs).
Proof. intros V outer inner pages rs H1 H2 E1 E2 O. apply lists_exact; auto. rewrite E1. apply lists_exact; auto. rewrite <- E2. apply primitive_reader. Qed.

(* ---- (F) draining ---- *)
Lemma runs_firstn : forall n ls k, firstn n (runs k ls) = runs k (firstn n ls).
Proof. induction n as [|n IH]; intros [|l t] k; try reflexivity. cbn. now rewrite IH. Qed.
Lemma runs_skipn : forall n ls k, n <= length ls -> skipn n (k :: runs k ls) = (k + sumn (firstn n ls)) :: runs (k + sumn (firstn n ls)) (skipn n ls).
Proof.
  induction n as [|n IH]; intros ls k H; [cbn; now rewrite Nat.add_0_r|]. destruct ls as [|l t]; [cbn in H; lia|]. cbn [runs]. change (skipn (S n) (k :: (k + l) :: runs (k + l) t)) with (skipn n ((k + l) :: runs (k + l) t)).
  rewrite IH by (cbn in H; lia). cbn [firstn sumn skipn]. now rewrite Nat.add_assoc.
Qed.
Theorem drain_exact : forall V limit (d : ldec V) n a d', dec_ok d -> n <= length (ld_valid d) -> drain limit d n = Some (a, d') ->
  array_ok a /\ lists_of a = firstn n (dec_lists d) /\ dec_ok d' /\ dec_lists d' = skipn n (dec_lists d) /\ length (ld_valid d') = length (ld_valid d) - n.
Proof.
  intros V limit d n a d' H Hn E. destruct (dec_ok_rows V d H) as [k [rows [Ed S]]]. revert Ed S. generalize (ld_items d). intros items Ed S. subst d. clear H. cbn [ld_items ld_valid ld_offsets] in *.
  rewrite map_length in Hn. unfold drain in E. cbn [ld_offsets ld_valid ld_items] in E.
  assert (Ef : firstn (n + 1) (k :: runs k (map fst rows)) = k :: runs k (map fst (firstn n rows))) by (rewrite Nat.add_1_r; cbn [firstn]; now rewrite runs_firstn, firstn_map).
  rewrite Ef in E. cbn [hd] in E. rewrite last_cons, runs_last_acc in E. fold (size (firstn n rows)) in E. replace (k + size (firstn n rows) - k) with (size (firstn n rows)) in E by lia.
  destruct (limit _); [|discriminate]. injection E as <- <-. rewrite dec_lists_chop. pose proof (size_firstn_le n rows) as Ln.
  assert (E0 : k - k :: map (fun o => o - k) (runs k (map fst (firstn n rows))) = 0 :: runs 0 (map fst (firstn n rows))).
  { rewrite Nat.sub_diag. f_equal. pose proof (map_sub_runs (map fst (firstn n rows)) k 0) as M. now rewrite Nat.add_0_r in M. }
  rewrite E0. rewrite runs_skipn by (rewrite map_length; lia). rewrite firstn_map, !skipn_map. rewrite <- firstn_map. fold (size (firstn n rows)).
  assert (Eq : sumn (firstn n (map fst rows)) = size (firstn n rows)) by (rewrite firstn_map; reflexivity). rewrite Eq.
  split; [split; [cbn; apply sorted_runs|split]|split; [|split; [|split]]].
  - cbn [la_offsets la_values]. rewrite last_cons, runs_last_acc, firstn_length. fold (size (firstn n rows)). lia.
  - cbn [la_valid la_offsets length]. rewrite runs_length, firstn_length, !map_length, firstn_length. lia.
  - unfold lists_of. cbn [la_offsets la_valid la_values]. rewrite firstn_map, lists_between_chop. cbn [skipn]. rewrite chop_firstn. apply chop_enough. lia.
  - apply dec_ok_runs. rewrite skipn_length, S. pose proof (firstn_skipn n rows) as Q. apply (f_equal size) in Q. rewrite size_app in Q. lia.
  - rewrite dec_lists_chop. symmetry. apply chop_skipn.
  - cbn [ld_valid]. rewrite map_length, skipn_length, map_length. reflexivity.
Qed.
Lemma dec_lists_length : forall V (d : ldec V), dec_ok d -> length (dec_lists d) = length (ld_valid d).
Proof.
  intros V d H. destruct (dec_ok_rows V d H) as [k [rows [Ed S]]]. revert Ed. generalize (ld_items d). intros items Ed. subst d. rewrite dec_lists_chop, chop_length. cbn [ld_valid]. now rewrite map_length.
Qed.
(* batches of any sizes give the lists of the decoder *)
Theorem drain_all_exact : forall V limit ns (d : ldec V) arrs, dec_ok d -> sumn ns = length (ld_valid d) -> drain_all limit d ns = Some arrs ->
  Forall array_ok arrs /\ map (fun a => length (lists_of a)) arrs = ns /\ concat (map lists_of arrs) = dec_lists d.
Proof.
  intros V limit. induction ns as [|n ns IH]; intros d arrs H S E.
  - injection E as <-. split; [constructor|]. split; [reflexivity|]. pose proof (dec_lists_length V d H) as L. cbn [sumn] in S. rewrite <- S in L. now destruct (dec_lists d).
  - cbn [drain_all] in E. cbn [sumn] in S. destruct (drain limit d n) as [[a d']|] eqn:D; [|discriminate]. cbn [obind] in E. destruct (drain_all limit d' ns) as [arrs'|] eqn:D'; [|discriminate]. cbn [omap] in E. injection E as <-.
    destruct (drain_exact V limit d n a d' H ltac:(lia) D) as [A1 [A2 [A3 [A4 A5]]]]. destruct (IH d' arrs' A3 ltac:(lia) D') as [B1 [B2 B3]]. split; [now constructor|]. cbn [map concat]. rewrite B2, B3, A4, A2. split.
    + f_equal. rewrite firstn_length, dec_lists_length by exact H. lia.
    + apply firstn_skipn.
Qed.
(* they fail only when a batch has too many items *)
Theorem drain_all_succeeds : forall V limit ns (d : ldec V), (forall c, limit c = true) -> drain_all limit d ns <> None.
Proof.
  intros V limit ns. induction ns as [|n ns IH]; intros d L; [discriminate|]. cbn [drain_all]. unfold drain. rewrite L. cbn [obind]. specialize (IH {| ld_offsets := skipn n (ld_offsets d); ld_valid := skipn n (ld_valid d);
    ld_items := skipn (last (firstn (n + 1) (ld_offsets d)) 0 - hd 0 (firstn (n + 1) (ld_offsets d))) (ld_items d) |} L). destruct (drain_all limit _ ns); [discriminate|contradiction].
Qed.

(* ---- a case that meets the hypotheses ---- *)
Definition la1 : larr nat := {| la_offsets := [2; 4; 4; 5]; la_valid := Some [true; false; true]; la_values := [90; 91; 10; 11; 12; 99] |}.
Definition la2 : larr nat := {| la_offsets := [0; 0; 3]; la_valid := None; la_values := [20; 21; 22] |}.
Definition la3 : larr nat := {| la_offsets := [0; 1; 3]; la_valid := Some [false; true]; la_values := [30; 31; 32] |}.
Example lists_exact_met : read_lists (map encode_page [[la1; la2]; [la3]]) (read_column [[10; 11; 12; 20]; [21; 22; 30; 31; 32]]) [(1, 3); (4, 7)]
  = Some [None; Some [12]; Some [20; 21; 22]; None; Some [31; 32]].
Proof.
  rewrite (lists_of_values_exact nat [[la1; la2]; [la3]]); [reflexivity| |reflexivity|cbn; lia].
  repeat constructor; cbn; lia.
Qed.

(* a row asked for twice at the start of a page, which schedule_take allows *)
Theorem lists_duplicate_refuted : exists (groups : list (list (larr nat))) pages rs, Forall array_ok (concat groups) /\ concat pages = column_items groups /\
  ascending rs (length (column_lists groups)) /\ wanted (column_lists groups) rs = [Some [10; 11]; Some [10; 11]] /\
  read_lists (map encode_page groups) (read_column pages) rs = Some [Some [10; 11]; Some []].
Proof.
  exists [[la1]], [[10; 11; 12]], [(0, 1); (0, 1)]. split; [repeat constructor; cbn; lia|]. split; [reflexivity|]. split; [cbn; lia|]. split; reflexivity.
Qed.
