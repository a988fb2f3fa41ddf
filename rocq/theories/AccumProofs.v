(* The pages of a column hold its arrays, in order, however they are gathered. *)
From Coq Require Import List Arith NArith ZArith Bool Lia.
From Verif Require Import Lib PageModel PageProofs ListEncModel ListEncProofs ListEncRead AccumModel.
From Verif Require PackModel.
Import ListNotations.
Local Open Scope nat_scope.

(* [rows] are the rows of an array; copies and slices have the rows they should *)
Definition lawful {A V} (op : ops A) (rows : A -> list V) : Prop :=
  (forall a, o_len op a = length (rows a)) /\ (forall a, rows (o_copy op a) = rows a) /\ (forall a s n, s + n <= length (rows a) -> rows (o_slice op a s n) = slice s (s + n) (rows a)).
Definition page_rows {A V} (rows : A -> list V) (p : list A) : list V := flat_map rows p.
Lemma ceil_n_up : forall v d, (0 < d)%N -> ceil_n v d = ((v + d - 1) / d)%N.
Proof.
  intros v d D. unfold ceil_n. pose proof (N.div_mod v d ltac:(lia)) as E. pose proof (N.mod_lt v d ltac:(lia)) as B. destruct (v mod d =? 0)%N eqn:Z; [apply N.eqb_eq in Z|apply N.eqb_neq in Z].
  - apply (N.div_unique (v + d - 1) d (v / d + 0) (d - 1))%N; lia.
  - apply (N.div_unique (v + d - 1) d (v / d + 1) (v mod d - 1))%N; lia.
Qed.
Lemma ceil_nat_up : forall v d, 0 < d -> ceil_nat v d = (v + d - 1) / d.
Proof.
  intros v d D. unfold ceil_nat. pose proof (Nat.div_mod v d ltac:(lia)) as E. pose proof (Nat.mod_upper_bound v d ltac:(lia)) as B. destruct (v mod d =? 0) eqn:Z; [apply Nat.eqb_eq in Z|apply Nat.eqb_neq in Z].
  - apply (Nat.div_unique (v + d - 1) d (v / d + 0) (d - 1)); lia.
  - apply (Nat.div_unique (v + d - 1) d (v / d + 1) (v mod d - 1)); lia.
Qed.
Lemma ceil_enough : forall v d, 0 < d -> v <= ceil_nat v d * d.
Proof. intros v d D. unfold ceil_nat. pose proof (Nat.div_mod v d ltac:(lia)) as E. destruct (v mod d =? 0) eqn:Z; [apply Nat.eqb_eq in Z; nia|]. pose proof (Nat.mod_upper_bound v d ltac:(lia)). nia. Qed.
Section Column.
  Context {A V : Type}.
  Variable op : ops A.
  Variable rows : A -> list V.
  Hypothesis law : lawful op rows.
  Variable cache : N.
  Variable keep : bool.
  Variable max_page : N.
  Definition in_result (r : option (list A * N * N)) : list A := match r with Some (l, _, _) => l | None => [] end.
  Lemma insert_rows : forall q a row n r q', insert op cache keep q a row n = (r, q') ->
    flat_map rows (in_result r) ++ flat_map rows (q_arrays q') = flat_map rows (q_arrays q) ++ rows a /\ (r <> None -> q' = empty_queue) /\ (r = None -> q_arrays q' <> []).
  Proof.
    intros q a row n r q' H. unfold insert in H. destruct (cache <? q_bytes q + o_mem op a)%N; injection H as <- <-; cbn [in_result q_arrays empty_queue flat_map app].
    - rewrite flat_map_app. cbn. rewrite !app_nil_r. repeat split. intros X. discriminate X.
    - rewrite flat_map_app. cbn [flat_map]. rewrite app_nil_r. split; [|split; [congruence|intros _ E; destruct (q_arrays q); discriminate E]]. destruct keep; [reflexivity|]. destruct law as (_ & -> & _). reflexivity.
  Qed.
  Lemma slice_join : forall (l : list V) s n, s + n <= length l -> slice s (s + n) l ++ skipn (s + n) l = skipn s l.
  Proof. intros l s n B. unfold slice. replace (s + n - s) with n by lia. rewrite <- (firstn_skipn n (skipn s l)) at 2. f_equal. now rewrite skipn_skipn', Nat.add_comm. Qed.
  Lemma parts_rows : forall k a part off, off <= length (rows a) -> length (rows a) <= off + k * part -> flat_map rows (parts_from op a part off k) = skipn off (rows a).
  Proof.
    induction k as [|k IH]; intros a part off B1 B2; cbn [parts_from flat_map]; [symmetry; apply skipn_all2; lia|]. destruct law as (L & _ & S). rewrite L. set (c := Nat.min (length (rows a) - off) part).
    rewrite S by (unfold c; lia). rewrite IH; [apply slice_join; unfold c; lia|unfold c; lia|]. unfold c. cbn in B2. lia.
  Qed.
  Lemma do_flush_rows : forall l ps, do_flush op max_page l = Some ps -> flat_map (page_rows rows) ps = flat_map rows l /\ ps <> [].
  Proof.
    intros l ps H. unfold do_flush in H. destruct l as [|a [|b l]]; [injection H as <-; split; [reflexivity|discriminate]| |injection H as <-; split; [cbn; now rewrite app_nil_r|discriminate]].
    destruct (max_page =? 0)%N; [discriminate H|]. set (k := N.to_nat (N.min (ceil_n (o_buf op a) max_page) (N.of_nat (o_len op a)))) in *. destruct (k <=? 1) eqn:E; injection H as <-; [split; [cbn; now rewrite !app_nil_r|discriminate]|]. apply Nat.leb_gt in E. split.
    - replace (flat_map (page_rows rows) (map (fun p => [p]) (parts_from op a (ceil_nat (o_len op a) k) 0 k))) with (flat_map rows (parts_from op a (ceil_nat (o_len op a) k) 0 k)).
      + rewrite parts_rows; [cbn; now rewrite app_nil_r|lia|]. destruct law as (L & _). rewrite <- L. pose proof (ceil_enough (o_len op a) k ltac:(lia)). lia.
      + generalize (parts_from op a (ceil_nat (o_len op a) k) 0 k). induction l as [|x l IH]; [reflexivity|]. cbn [map flat_map page_rows]. rewrite IH, app_nil_r. reflexivity.
    - destruct k; [lia|]. discriminate.
  Qed.
  Lemma do_flush_some : forall l, (0 < max_page)%N -> exists ps, do_flush op max_page l = Some ps.
  Proof. intros l P. unfold do_flush. destruct l as [|a [|b l]]; eauto. replace (max_page =? 0)%N with false by (symmetry; apply N.eqb_neq; lia). destruct (_ <=? 1); eauto. Qed.
  Lemma encode20_rows : forall r ps, encode20 op max_page r = Some ps -> flat_map (page_rows rows) ps = flat_map rows (in_result r) /\ (r <> None <-> ps <> []).
  Proof. intros [[[l x] y]|] ps H; cbn [encode20 in_result] in *; [destruct (do_flush_rows _ _ H); split; [assumption|split; congruence]|injection H as <-; split; [reflexivity|split; congruence]]. Qed.
  Lemma push20_rows : forall q a row n ps q', push20 op cache keep max_page q a row n = Some (ps, q') ->
    flat_map (page_rows rows) ps ++ flat_map rows (q_arrays q') = flat_map rows (q_arrays q) ++ rows a /\ (ps <> [] -> q' = empty_queue).
  Proof.
    intros q a row n ps q' H. unfold push20 in H. destruct (insert op cache keep q a row n) as [r q1] eqn:E. destruct (insert_rows _ _ _ _ _ _ E) as (R & Z & _). destruct (encode20 op max_page r) as [ps1|] eqn:E2; [|discriminate H]. cbn in H. injection H as -> ->. destruct (encode20_rows _ _ E2) as [-> N]. split; [exact R|]. intros P. apply Z. now apply N.
  Qed.
  Lemma flush20_rows : forall q ps q', flush20 op max_page q = Some (ps, q') -> flat_map (page_rows rows) ps = flat_map rows (q_arrays q) /\ q_arrays q' = [] /\ (q_arrays q = [] -> ps = []) /\ (q_arrays q <> [] -> q' = empty_queue).
  Proof.
    intros q ps q' H. unfold flush20, flush in H. destruct (q_arrays q) as [|x l] eqn:E.
    - cbn in H. injection H as <- <-. rewrite E. repeat split; congruence.
    - destruct (encode20 op max_page (Some (x :: l, q_row q, q_rows q))) as [ps1|] eqn:E2; [|discriminate H]. cbn [omap] in H. injection H as -> <-. destruct (encode20_rows _ _ E2) as [-> _]. cbn [in_result]. repeat split; congruence.
  Qed.
  Lemma push20_some : forall q a row n, (0 < max_page)%N -> exists x, push20 op cache keep max_page q a row n = Some x.
  Proof. intros q a row n P. unfold push20. destruct (insert op cache keep q a row n) as [[[[l y] z]|] q1]; cbn; [destruct (do_flush_some l P) as [ps ->]|]; cbn; eauto. Qed.
  Lemma flush20_some : forall q, (0 < max_page)%N -> exists x, flush20 op max_page q = Some x.
  Proof. intros q P. unfold flush20, flush. destruct (q_arrays q); cbn [encode20]; [cbn; eauto|]. destruct (do_flush_some (a :: l) P) as [ps ->]. cbn. eauto. Qed.
  Lemma column20_rows : forall l q row, (0 < max_page)%N -> exists ps, column20 op cache keep max_page q row l = Some ps /\ flat_map (page_rows rows) ps = flat_map rows (q_arrays q) ++ flat_map (fun p => rows (fst p)) l.
  Proof.
    induction l as [|[a n] l IH]; intros q row P; cbn [column20].
    - destruct (flush20_some q P) as [[ps q'] E]. rewrite E. exists ps. split; [reflexivity|]. destruct (flush20_rows _ _ _ E) as [-> _]. cbn. now rewrite app_nil_r.
    - destruct (push20_some q a row n P) as [[ps q'] E]. rewrite E. cbn [obind]. destruct (IH q' (row + n)%N P) as (more & -> & R). cbn [omap]. exists (ps ++ more). split; [reflexivity|]. rewrite flat_map_app, R, app_assoc. destruct (push20_rows _ _ _ _ _ _ E) as [-> _]. cbn [flat_map fst]. now rewrite <- app_assoc.
  Qed.
  (* a column of format 2.0 can always be written and reads back the rows of its arrays *)
  Theorem column20_exact_s : forall l, (0 < max_page)%N -> exists pages, column20 op cache keep max_page empty_queue 0%N l = Some pages /\
    forall rs, ascending rs (length (flat_map (fun p => rows (fst p)) l)) -> read_column (map (page_rows rows) pages) rs = Some (wanted (flat_map (fun p => rows (fst p)) l) rs).
  Proof.
    intros l P. destruct (column20_rows l empty_queue 0%N P) as (ps & E & R). exists ps. split; [exact E|]. cbn [empty_queue q_arrays flat_map app] in R. intros rs H. rewrite <- R in *. rewrite flat_map_concat_map in *. now apply read_exact.
  Qed.
  (* pages have rows when arrays have rows and can be cut evenly *)
  Definition even_cut (a : A) : Prop := let k := N.to_nat (N.min ((o_buf op a + max_page - 1) / max_page) (N.of_nat (o_len op a))) in k <= 1 \/ (k - 1) * ((o_len op a + k - 1) / k) < o_len op a.
  Lemma parts_nonempty : forall k a part off, off <= length (rows a) -> (0 < k -> off + (k - 1) * part < length (rows a)) -> 0 < part -> Forall (fun p => rows p <> []) (parts_from op a part off k).
  Proof.
    induction k as [|k IH]; intros a part off B1 B2 P; cbn [parts_from]; [constructor|]. specialize (B2 ltac:(lia)). cbn [Nat.sub] in B2. rewrite Nat.sub_0_r in B2. destruct law as (L & _ & S). rewrite L. constructor.
    - rewrite S by lia. intros E. apply (f_equal (@length V)) in E. unfold slice in E. rewrite firstn_length, skipn_length in E. cbn in E. nia.
    - apply IH; [lia| |exact P]. intros K. destruct k; [lia|]. cbn [Nat.sub] in *. rewrite Nat.sub_0_r in *. cbn [Nat.mul] in B2. lia.
  Qed.
  Lemma do_flush_nonempty : forall l ps, l <> [] -> Forall (fun a => rows a <> [] /\ even_cut a) l -> do_flush op max_page l = Some ps -> Forall (fun p => page_rows rows p <> []) ps.
  Proof.
    intros l ps NE F H. unfold do_flush in H. destruct l as [|a [|b l]]; [congruence| |].
    - apply Forall_cons_iff in F as [[F EC] _]. destruct (max_page =? 0)%N eqn:MP; [discriminate H|]. apply N.eqb_neq in MP. unfold even_cut in EC. rewrite <- ceil_n_up in EC by lia. set (k := N.to_nat (N.min (ceil_n (o_buf op a) max_page) (N.of_nat (o_len op a)))) in *. destruct (k <=? 1) eqn:E; injection H as <-; [repeat constructor; cbn; now rewrite app_nil_r|]. apply Nat.leb_gt in E. destruct EC as [EC|EC]; [lia|]. rewrite <- ceil_nat_up in EC by lia. destruct law as (L & _). rewrite L in *.
      assert (G : Forall (fun p => rows p <> []) (parts_from op a (ceil_nat (length (rows a)) k) 0 k)). { apply parts_nonempty; [lia|lia|]. destruct (ceil_nat (length (rows a)) k) eqn:Z; [|lia]. pose proof (ceil_enough (length (rows a)) k ltac:(lia)). rewrite Z in H. destruct (rows a); [congruence|cbn in H; lia]. }
      apply Forall_map. eapply Forall_impl; [|exact G]. intros p Hp. cbn. now rewrite app_nil_r.
    - injection H as <-. constructor; [|constructor]. apply Forall_cons_iff in F as [[F _] _]. cbn [page_rows flat_map]. destruct (rows a); [congruence|discriminate].
  Qed.
  Lemma insert_all : forall (P : A -> Prop) q a row n r q', P (o_copy op a) -> Forall P (q_arrays q) -> P a -> insert op cache keep q a row n = (r, q') -> Forall P (in_result r) /\ Forall P (q_arrays q') /\ (r <> None -> in_result r <> []).
  Proof.
    intros P q a row n r q' C F Pa H. unfold insert in H. destruct (cache <? q_bytes q + o_mem op a)%N; injection H as <- <-; cbn [in_result q_arrays empty_queue].
    - split; [apply Forall_app; auto|]. split; [constructor|]. intros _ E. destruct (q_arrays q); discriminate E.
    - split; [constructor|]. split; [|congruence]. apply Forall_app. split; [exact F|]. constructor; [|constructor]. destruct keep; auto.
  Qed.
  Definition cuts_evenly (a : A) : Prop := rows a <> [] /\ even_cut a /\ even_cut (o_copy op a).
  Theorem column20_nonempty_s : forall l pages, Forall (fun p => cuts_evenly (fst p)) l -> column20 op cache keep max_page empty_queue 0%N l = Some pages -> Forall (fun p => page_rows rows p <> []) pages.
  Proof.
    intros l pages F.
    assert (G : forall l q row ps, Forall (fun p => cuts_evenly (fst p)) l -> Forall (fun a => rows a <> [] /\ even_cut a) (q_arrays q) -> column20 op cache keep max_page q row l = Some ps -> Forall (fun p => page_rows rows p <> []) ps).
    { clear l pages F. induction l as [|[a n] l IH]; intros q row ps F Q H; cbn [column20] in H.
      - unfold flush20, flush in H. destruct (q_arrays q) as [|x t] eqn:E; [cbn in H; injection H as <-; constructor|]. destruct (encode20 op max_page (Some (x :: t, q_row q, q_rows q))) as [p1|] eqn:E2; [|discriminate H]. cbn in H. injection H as <-. cbn [encode20] in E2. eapply do_flush_nonempty; [|exact Q|exact E2]. discriminate.
      - apply Forall_cons_iff in F as [F0 F]. unfold push20 in H. destruct (insert op cache keep q a row n) as [r q1] eqn:E.
        assert (CP : rows (o_copy op a) <> [] /\ even_cut (o_copy op a)) by (split; [destruct law as (_ & -> & _)|]; apply F0). destruct (insert_all (fun a => rows a <> [] /\ even_cut a) _ _ _ _ _ _ CP Q (conj (proj1 F0) (proj1 (proj2 F0))) E) as (I1 & I2 & I3).
        destruct (encode20 op max_page r) as [p1|] eqn:E2; [|discriminate H]. cbn [omap obind] in H. destruct (column20 op cache keep max_page q1 (row + n)%N l) as [more|] eqn:E3; [|discriminate H]. cbn in H. injection H as <-. apply Forall_app. split; [|eapply IH; eauto].
        destruct r as [[[x y] z]|]; cbn [encode20 in_result] in *; [|injection E2 as <-; constructor]. eapply do_flush_nonempty; [|exact I1|exact E2]. apply I3. discriminate. }
    intros H. eapply G; eauto. constructor.
  Qed.

  (* ---- format 2.1 ---- *)
  Definition sum_rows {D} (g : list (A * D * N)) : N := fold_right (fun p s => (snd p + s)%N) 0%N g.
  (* the pages are made from consecutive groups of what was pushed *)
  Fixpoint tiled {D} (start : N) (pages : list (page21 D)) (groups : list (list (A * D * N))) : Prop :=
    match pages, groups with
    | [], [] => True
    | p :: ps, g :: gs => g <> [] /\ map rows (p_arrays p) = map (fun x => rows (fst (fst x))) g /\ p_repdefs p = map (fun x => snd (fst x)) g /\ p_row p = start /\ p_rows p = sum_rows g /\ tiled (start + p_rows p)%N ps gs
    | _, _ => False
    end.
  Lemma sum_rows_app {D} : forall (a b : list (A * D * N)), sum_rows (a ++ b) = (sum_rows a + sum_rows b)%N.
  Proof. induction a as [|x a IH]; intros b; [reflexivity|]. specialize (IH b). unfold sum_rows in *. cbn [app fold_right]. rewrite IH. lia. Qed.
  Lemma column21_tiled {D} : forall (l : list (A * D * N)) q ds row pend start, map rows (q_arrays q) = map (fun x => rows (fst (fst x))) pend -> ds = map (fun x => snd (fst x)) pend -> q_rows q = sum_rows pend ->
    (start + sum_rows pend = row)%N -> (row + sum_rows l < NO_ROW)%N -> (pend = [] -> q_row q = NO_ROW) -> (pend <> [] -> q_row q = start) ->
    exists groups, concat groups = pend ++ l /\ tiled start (column21 op cache keep q ds row l) groups.
  Proof.
    induction l as [|[[a d] n] l IH]; intros q ds row pend start QA DS QR ST LT E0 E1; cbn [column21].
    - unfold flush. destruct (q_arrays q) as [|x t] eqn:EQ.
      + destruct pend; [|discriminate QA]. exists []. split; [reflexivity|exact Logic.I].
      + destruct pend as [|y pend]; [discriminate QA|]. exists [y :: pend]. split; [reflexivity|]. cbn [fst take21 tiled p_arrays p_repdefs p_row p_rows]. split; [discriminate|]. split; [exact QA|]. split; [exact DS|]. split; [now apply E1|]. split; [exact QR|exact Logic.I].
    - cbn [sum_rows fold_right snd] in LT. fold (sum_rows l) in LT. destruct (insert op cache keep q a row n) as [r q'] eqn:E.
      assert (RW : (if (q_row q =? NO_ROW)%N then row else q_row q) = start).
      { destruct pend as [|y pend]; [rewrite (E0 eq_refl), N.eqb_refl; cbn in ST; lia|]. rewrite E1 by discriminate. replace (start =? NO_ROW)%N with false; [reflexivity|]. symmetry. apply N.eqb_neq. lia. }
      unfold insert in E. rewrite RW in E. destruct (cache <? q_bytes q + o_mem op a)%N; injection E as <- <-; cbn [take21].
      + destruct (IH empty_queue [] (row + n)%N [] (row + n)%N) as (gs & C & T); try reflexivity; [cbn; lia|lia|congruence|]. exists ((pend ++ [(a, d, n)]) :: gs). split; [cbn [concat]; rewrite C, <- app_assoc; reflexivity|]. cbn [app tiled p_arrays p_repdefs p_row p_rows].
        split; [destruct pend; discriminate|]. split; [now rewrite !map_app, QA|]. split; [now rewrite map_app, DS|]. split; [reflexivity|]. rewrite sum_rows_app, QR. split; [cbn; lia|]. replace (start + (sum_rows pend + n))%N with (row + n)%N by lia. exact T.
      + cbn [app]. destruct (IH {| q_arrays := q_arrays q ++ [if keep then a else o_copy op a]; q_bytes := q_bytes q + o_mem op a; q_row := start; q_rows := q_rows q + n |}%N (ds ++ [d]) (row + n)%N (pend ++ [(a, d, n)]) start) as (gs & C & T).
        * cbn [q_arrays]. rewrite !map_app, QA. f_equal. cbn. f_equal. destruct keep; [reflexivity|]. destruct law as (_ & -> & _). reflexivity.
        * now rewrite map_app, DS.
        * cbn [q_rows]. rewrite sum_rows_app, QR. cbn. lia.
        * rewrite sum_rows_app. cbn. lia.
        * lia.
        * intros X. destruct pend; discriminate X.
        * reflexivity.
        * exists gs. split; [rewrite C, <- app_assoc; reflexivity|exact T].
  Qed.
End Column.
Theorem column20_exact : forall A V (op : ops A) (rows : A -> list V) cache keep max_page l, lawful op rows -> (0 < max_page)%N -> exists pages, column20 op cache keep max_page empty_queue 0%N l = Some pages /\
  forall rs, ascending rs (length (flat_map (fun p => rows (fst p)) l)) -> read_column (map (page_rows rows) pages) rs = Some (wanted (flat_map (fun p => rows (fst p)) l) rs).
Proof. intros A V op rows cache keep max_page l law P. exact (column20_exact_s op rows law cache keep max_page l P). Qed.
Theorem column20_nonempty : forall A V (op : ops A) (rows : A -> list V) cache keep max_page l pages, lawful op rows -> Forall (fun p => cuts_evenly op rows max_page (fst p)) l ->
  column20 op cache keep max_page empty_queue 0%N l = Some pages -> Forall (fun p => page_rows rows p <> []) pages.
Proof. intros A V op rows cache keep max_page l pages law F H. eapply column20_nonempty_s; eauto. Qed.
Theorem column21_exact : forall A D V (op : ops A) (rows : A -> list V) cache keep (l : list (A * D * N)), lawful op rows -> (sum_rows l < NO_ROW)%N -> exists groups, concat groups = l /\ tiled rows 0%N (column21 op cache keep empty_queue [] 0%N l) groups.
Proof. intros A D V op rows cache keep l law H. apply (column21_tiled op rows law cache keep l empty_queue [] 0%N [] 0%N); try reflexivity; try congruence; try exact H. Qed.

(* what a column holds back never takes more than the cache *)
Definition mem_of {A} (op : ops A) (l : list A) : N := fold_right (fun a s => (o_mem op a + s)%N) 0%N l.
Definition held {A} (op : ops A) cache keep (l : list (A * N * N)) : queue A := fold_left (fun q p => snd (insert op cache keep q (fst (fst p)) (snd (fst p)) (snd p))) l empty_queue.
Theorem held_bounded : forall A (op : ops A) cache keep l, (forall a, o_mem op (o_copy op a) <= o_mem op a)%N -> (mem_of op (q_arrays (held op cache keep l)) <= cache)%N.
Proof.
  intros A op cache keep l C. assert (MA : forall x y, mem_of op (x ++ y) = (mem_of op x + mem_of op y)%N) by (induction x as [|a x IH]; intros y; [reflexivity|]; unfold mem_of in *; cbn [app fold_right]; rewrite IH; lia).
  assert (G : forall l q, (mem_of op (q_arrays q) <= q_bytes q)%N -> (q_bytes q <= cache)%N -> (mem_of op (q_arrays (fold_left (fun q p => snd (insert op cache keep q (fst (fst p)) (snd (fst p)) (snd p))) l q)) <= cache)%N).
  { clear l. induction l as [|[[a r] n] l IH]; intros q B1 B2; cbn [fold_left fst snd]; [lia|]. apply IH; unfold insert; destruct (cache <? q_bytes q + o_mem op a)%N eqn:E; cbn [snd empty_queue q_arrays q_bytes]; try (cbn; lia).
    - rewrite MA. cbn [mem_of fold_right]. specialize (C a). destruct keep; lia. }
  apply G; cbn; lia.
Qed.
(* ---- lists ---- *)
Definition parts_of {V} (l : list (larr V)) : list part := flat_map (fun a => [extract_offsets a; extract_validity a]) l.
Lemma evens_parts : forall V (l : list (larr V)), evens (parts_of l) = map extract_offsets l /\ evens (tl (parts_of l)) = map extract_validity l.
Proof.
  induction l as [|a l [IH1 IH2]]; [split; reflexivity|]. cbn [parts_of flat_map app evens map tl]. fold (parts_of l). rewrite IH1. split; [reflexivity|]. destruct l as [|b l]; [reflexivity|]. cbn [parts_of flat_map app evens tl map] in *. now rewrite IH2.
Qed.
Lemma extend_same : forall V (a : larr V) base adj, extend_offsets {| la_offsets := la_offsets a; la_valid := Some (match la_valid a with Some v => v | None => [] end); la_values := @nil V |} base adj = extend_offsets a base adj.
Proof. intros V a base adj. unfold extend_offsets, validity. cbn [la_offsets la_valid]. destruct (la_valid a) as [[|x v]|]; reflexivity. Qed.
Lemma offsets_page_ok : forall V (l : list (larr V)), @offsets_page V (parts_of l) = Some (encode_page l).
Proof.
  intros V l. unfold offsets_page. destruct (evens_parts V l) as [-> ->].
  assert (P : pair_up (map extract_offsets l) (map extract_validity l) = Some (map (fun a : larr V => (la_offsets a, match la_valid a with Some v => v | None => [] end)) l)). { induction l as [|a l IH]; [reflexivity|]. cbn [map pair_up extract_offsets extract_validity]. now rewrite IH. }
  rewrite P. cbn [omap]. f_equal. rewrite map_map. cbn [fst snd]. unfold encode_page. rewrite map_map.
  match goal with |- {| lp_offsets := encode_offsets _ (sumn ?x + 1); lp_adj := _; lp_items := _ |} = _ => replace x with (map span l) by (apply map_ext; reflexivity) end. f_equal.
  unfold encode_offsets. generalize (sumn (map span l) + 1) as adj. intros adj. generalize (@nil nat) as dest. induction l as [|a l IH]; intros dest; [reflexivity|]. cbn [map fold_left]. rewrite extend_same. apply IH. cbn [map pair_up extract_offsets extract_validity] in P. destruct (pair_up (map extract_offsets l) (map extract_validity l)); [|discriminate P]. cbn in P. now injection P as ->.
Qed.
Section ListColumn.
  Context {V : Type}.
  Variable opo : ops part.
  Variable opi : ops (list V).
  Hypothesis copy_parts : forall p, o_copy opo p = p.
  Hypothesis law : lawful opi (fun x => x).
  Variable cache : N.
  Variable keep : bool.
  Variable max_page : N.
  Hypothesis pos : (0 < max_page)%N.
  Definition item_rows : list (list V) -> list V := page_rows (fun x => x).
  Lemma push_offsets_ok : forall q (a : larr V) pend r q', q_arrays q = parts_of pend -> push_offsets opo cache keep q a = (r, q') -> (r = Some (parts_of (pend ++ [a])) /\ q_arrays q' = []) \/ (r = None /\ q_arrays q' = parts_of (pend ++ [a])).
  Proof.
    intros q a pend r q' Q H. unfold push_offsets, insert in H. assert (C : forall p, (if keep then p else o_copy opo p) = p) by (intros p; destruct keep; auto). unfold parts_of. rewrite flat_map_app. cbn [flat_map app]. fold (parts_of pend).
    destruct (cache <? q_bytes q + _)%N; [injection H as <- <-; left; rewrite Q, <- app_assoc; split; reflexivity|]. cbn [q_arrays q_bytes q_row q_rows] in H.
    match type of H with context [(cache <? ?x)%N] => destruct (cache <? x)%N end; injection H as <- <-; [left|right]; cbn [q_arrays empty_queue]; rewrite ?C, Q, <- app_assoc; split; reflexivity.
  Qed.
  (* pages of offsets and of items go together: no page of items has items of two pages of offsets *)
  Lemma column_lists_ok : forall (l : list (larr V * N)) qo qi row pend prior, q_arrays qo = parts_of pend -> flat_map item_rows prior ++ concat (q_arrays qi) = flat_map items_of pend -> (pend = [] -> prior = [] /\ q_arrays qi = []) ->
    exists opages ipages groups igs, column_lists20 opo opi cache keep max_page qo qi row l = Some (opages, ipages) /\ concat groups = pend ++ map fst l /\ opages = map encode_page groups /\ concat igs = prior ++ ipages /\ Forall2 (fun g ig => flat_map item_rows ig = flat_map items_of g) groups igs.
  Proof.
    assert (FI : forall (x : list (list V)), flat_map (fun y => y) x = concat x) by (intros x; rewrite flat_map_concat_map, map_id; reflexivity).
    induction l as [|[a n] l IH]; intros qo qi row pend prior QO QI E0; cbn [column_lists20].
    - destruct (flush20_some opi max_page qi pos) as [[its qi'] EF]. destruct (flush20_rows opi (fun x => x) law max_page _ _ _ EF) as (R & _ & Z & _). rewrite FI in R. destruct pend as [|x pend].
      + destruct (E0 eq_refl) as [-> QE]. rewrite QO. cbn [parts_of flat_map obind]. rewrite EF. cbn [omap fst]. exists [], its, [], []. rewrite (Z QE). repeat split; constructor.
      + destruct (q_arrays qo) as [|y t] eqn:EQ; [discriminate QO|]. rewrite QO, offsets_page_ok. cbn [omap obind]. rewrite EF. cbn [omap fst]. exists [encode_page (x :: pend)], its, [x :: pend], [prior ++ its]. cbn [map concat]. rewrite !app_nil_r. repeat split. constructor; [|constructor]. rewrite flat_map_app. fold item_rows in R. rewrite R. exact QI.
    - unfold push_list. destruct (push_offsets opo cache keep qo a) as [ro qo'] eqn:EO. destruct (push20_some opi cache keep max_page qi (items_of a) row n pos) as [[its qi'] EP]. destruct (push20_rows opi (fun x => x) law cache keep max_page _ _ _ _ _ _ EP) as (R & Z). rewrite !FI in R. fold item_rows in R.
      assert (RR : flat_map item_rows (prior ++ its) ++ concat (q_arrays qi') = flat_map items_of (pend ++ [a])). { rewrite flat_map_app, <- app_assoc. rewrite R, app_assoc, QI, flat_map_app. cbn. now rewrite app_nil_r. }
      destruct (push_offsets_ok _ _ _ _ _ QO EO) as [[-> QE]|[-> QE]].
      + rewrite offsets_page_ok. cbn [omap obind]. rewrite EP. cbn [obind].
        assert (NX : exists its2 qi2, (match its with [] => omap (fun '(its', q2) => ([encode_page (pend ++ [a])], its', qo', q2)) (flush20 opi max_page qi') | _ :: _ => Some ([encode_page (pend ++ [a])], its, qo', qi') end) = Some ([encode_page (pend ++ [a])], its2, qo', qi2) /\ q_arrays qi2 = [] /\ flat_map item_rows (prior ++ its2) = flat_map items_of (pend ++ [a])).
        { destruct its as [|i0 its].
          - destruct (flush20_some opi max_page qi' pos) as [[its2 qi2] EF]. rewrite EF. cbn [omap]. exists its2, qi2. destruct (flush20_rows opi (fun x => x) law max_page _ _ _ EF) as (R2 & Z2 & _). rewrite FI in R2. split; [reflexivity|]. split; [exact Z2|]. rewrite app_nil_r in RR. rewrite flat_map_app. fold item_rows in R2. rewrite R2. exact RR.
          - exists (i0 :: its), qi'. split; [reflexivity|]. rewrite (Z ltac:(discriminate)) in *. cbn [empty_queue q_arrays concat] in RR. rewrite app_nil_r in RR. split; [reflexivity|exact RR]. }
        destruct NX as (its2 & qi2 & -> & QI2 & RR2). cbn [obind]. destruct (IH qo' qi2 (row + n)%N [] []) as (ops & ips & gs & igs & -> & C & EO2 & CI & F); [exact QE|now rewrite QI2|auto|]. cbn [omap fst snd].
        exists ([encode_page (pend ++ [a])] ++ ops), (its2 ++ ips), ((pend ++ [a]) :: gs), ((prior ++ its2) :: igs). cbn [app] in *. repeat split.
        * cbn [concat map fst]. rewrite C, <- app_assoc. reflexivity.
        * cbn [map]. now rewrite EO2.
        * cbn [concat]. rewrite CI, app_assoc. reflexivity.
        * constructor; assumption.
      + cbn [obind]. rewrite EP. cbn [obind]. destruct (IH qo' qi' (row + n)%N (pend ++ [a]) (prior ++ its)) as (ops & ips & gs & igs & -> & C & EO2 & CI & F); [exact QE|exact RR|intros X; destruct pend; discriminate X|]. cbn [omap fst snd app].
        exists ops, (its ++ ips), gs, igs. repeat split; auto; [rewrite C, <- app_assoc; reflexivity|rewrite CI, <- app_assoc; reflexivity].
  Qed.
End ListColumn.
Lemma concat_twice : forall X (l : list (list (list X))), concat (concat l) = concat (map (@concat X) l).
Proof. induction l as [|x l IH]; [reflexivity|]. cbn. now rewrite concat_app, IH. Qed.
Theorem lists20_exact : forall V opo (opi : ops (list V)) cache keep max_page (l : list (larr V * N)), (forall p, o_copy opo p = p) -> lawful opi (fun x => x) -> (0 < max_page)%N -> Forall (fun p => array_ok (fst p)) l ->
  exists opages ipages, column_lists20 opo opi cache keep max_page empty_queue empty_queue 0%N l = Some (opages, ipages) /\
  (forall rs, ordered rs (length (flat_map (fun p => lists_of (fst p)) l)) -> read_lists opages (read_column (map (@concat V) ipages)) rs = Some (wanted (flat_map (fun p => lists_of (fst p)) l) rs)) /\
  exists groups igs, concat groups = map fst l /\ opages = map encode_page groups /\ concat igs = ipages /\ Forall2 (fun g ig => concat (concat ig) = flat_map items_of g) groups igs.
Proof.
  intros V opo opi cache keep max_page l CP law P OK. destruct (column_lists_ok opo opi CP law cache keep max_page P l empty_queue empty_queue 0%N [] [] eq_refl eq_refl ltac:(auto)) as (ops & ips & gs & igs & E & C & EO & CI & F). cbn [app] in C, CI. exists ops, ips. split; [exact E|].
  assert (CC : forall x : list (list (list V)), flat_map item_rows x = concat (concat x)). { intros x. unfold item_rows, page_rows. induction x as [|y x IH]; [reflexivity|]. cbn. now rewrite concat_app, IH. }
  split.
  - intros rs O. subst ops. assert (CL : column_lists gs = flat_map (fun p => lists_of (fst p)) l) by (unfold column_lists; rewrite C, map_map, <- flat_map_concat_map; reflexivity). rewrite <- CL in *. apply lists_of_values_exact; [rewrite C; now apply Forall_map| |exact O].
    unfold column_items. rewrite <- CI. clear - F CC. rewrite <- flat_map_concat_map. induction F as [|g ig gs igs H F IH]; [reflexivity|]. cbn [concat]. rewrite map_app, concat_app, flat_map_app, IH. f_equal. rewrite <- (flat_map_concat_map items_of g), <- H, CC, concat_twice, flat_map_concat_map. reflexivity.
  - exists gs, igs. repeat split; auto. clear - F CC. induction F; constructor; [now rewrite <- CC|assumption].
Qed.

(* ---- pages without rows ---- *)
(* arrays of numbers that take eight bytes each *)
Definition words : ops (list N) := {| o_len := @length N; o_mem := fun a => (96 + 8 * N.of_nat (length a))%N; o_buf := fun a => (8 * N.of_nat (length a))%N; o_copy := fun a => a; o_slice := fun a s n => slice s (s + n) a |}.
(* five rows that take four pages: the last page is empty *)
Theorem empty_page_refuted : exists l, Forall (fun p : list N * N => fst p <> []) l /\ lawful words (fun x => x) /\ column20 words 0%N true 11%N empty_queue 0%N l = Some [[[1; 2]]; [[3; 4]]; [[5]]; [[]]]%N.
Proof. exists [([1; 2; 3; 4; 5], 5)]%N. split; [repeat constructor; discriminate|]. split; [repeat split; intros; reflexivity|]. vm_compute. reflexivity. Qed.
(* packed structs without rows, as the items of empty lists: the page cannot be written *)
Theorem packed_empty_refuted : exists (op : ops PackModel.sarr) ts a pages, PackModel.s_len a = 0 /\ column20 op 100%N true 1000%N empty_queue 0%N [(a, 1%N)] = Some pages /\ Exists (fun p => PackModel.write_packed ts p = None) pages.
Proof.
  exists {| o_len := PackModel.s_len; o_mem := fun _ => 50%N; o_buf := fun _ => 0%N; o_copy := fun a => a; o_slice := fun a _ _ => a |}, [], {| PackModel.s_len := 0; PackModel.s_children := []; PackModel.s_valid := None |}. eexists. split; [reflexivity|]. split; [vm_compute; reflexivity|]. constructor. reflexivity.
Qed.
