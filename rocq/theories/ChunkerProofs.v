(* C56 *)
From Coq Require Import List Arith Bool Lia.
From Verif Require Import Lib ChunkerModel.
Import ListNotations.

(* ---- chunk_stream ---- *)
Lemma bslice_ok : forall {A} (b : list A) off len, off + len <= length b -> bslice b off len = Some (firstn len (skipn off b)).
Proof. intros. unfold bslice. destruct (Nat.leb_spec (off + len) (length b)); [reflexivity|lia]. Qed.

(* i points inside the first buffered batch *)
Definition pos_ok {A} (buf : list (list A)) (i : nat) : Prop := i = 0 \/ exists b t, buf = b :: t /\ i < length b.
Definition pending {A} (buf : list (list A)) (i : nat) : list A := skipn i (concat buf).

Lemma pos_app : forall {A} (buf : list (list A)) b i, pos_ok buf i -> pos_ok (buf ++ [b]) i.
Proof. intros A buf b i [->|[x [t [-> H]]]]; [left; reflexivity|right]. exists x, (t ++ [b]). auto. Qed.
Lemma pos_le : forall {A} (buf : list (list A)) i, pos_ok buf i -> i <= length (concat buf).
Proof. intros A buf i [->|[x [t [-> H]]]]; [lia|]. cbn. rewrite app_length. lia. Qed.
Lemma pending_length : forall {A} (buf : list (list A)) i, length (pending buf i) = buffered_len buf i.
Proof. intros. unfold pending, buffered_len. apply skipn_length. Qed.
Lemma pending_app : forall {A} (buf : list (list A)) b i, pos_ok buf i -> pending (buf ++ [b]) i = pending buf i ++ b.
Proof.
  intros A buf b i P. unfold pending. rewrite concat_app. cbn. rewrite app_nil_r. rewrite skipn_app.
  replace (i - length (concat buf)) with 0 by (pose proof (pos_le buf i P); lia). reflexivity.
Qed.

Lemma fill_spec : forall {A} n (inner : list (item (list A))) buf i inner' buf' e, pos_ok buf i ->
  fill_buffer n inner buf i = (inner', buf', e) ->
  pos_ok buf' i /\ pending buf' i ++ concat (oks inner') = pending buf i ++ concat (oks inner) /\
  errs inner = errs inner' + (if e then 1 else 0) /\ length inner' + (if e then 1 else 0) <= length inner /\
  (e = false -> n <= length (pending buf' i) \/ inner' = []).
Proof.
  intros A n. induction inner as [|x inner IH]; intros buf i inner' buf' e P H; cbn [fill_buffer] in H; destruct (Nat.ltb_spec (buffered_len buf i) n).
  - injection H as <- <- <-. repeat split; auto.
  - injection H as <- <- <-. rewrite pending_length. repeat split; auto.
  - destruct x as [b|].
    + apply IH in H; [|apply pos_app; exact P]. destruct H as [P' [E [R [L F]]]]. split; [exact P'|]. split; [|split; [exact R|split; [cbn; lia|exact F]]].
      rewrite E, pending_app by exact P. cbn. rewrite <- app_assoc. reflexivity.
    + injection H as <- <- <-. split; [exact P|]. split; [reflexivity|]. split; [unfold errs; cbn; lia|]. split; [cbn; lia|discriminate].
  - injection H as <- <- <-. rewrite pending_length. split; [exact P|]. repeat split; auto; cbn; lia.
Qed.

Lemma collect_spec : forall {A} n (buf : list (list A)) i col acc, pos_ok buf i -> col <= n ->
  exists acc' buf' i', collect n buf i col acc = Some (acc ++ acc', buf', i') /\ pos_ok buf' i' /\
    pending buf i = concat acc' ++ pending buf' i' /\ length (concat acc') = Nat.min (n - col) (length (pending buf i)) /\
    Forall (fun p => p <> []) acc'.
Proof.
  intros A n. induction buf as [|b t IH]; intros i col acc P L; cbn [collect]; destruct (Nat.ltb_spec col n).
  - exists [], [], i. rewrite app_nil_r. unfold pending. cbn. rewrite skipn_nil. cbn. repeat split; auto. lia.
  - exists [], [], i. rewrite app_nil_r. unfold pending. cbn. rewrite skipn_nil. cbn. repeat split; auto. lia.
  - assert (E0 : i = 0 \/ 0 < length b /\ i < length b).
    { destruct P as [->|[x [u [E H1]]]]; [left; reflexivity|right]. injection E as -> ->. lia. }
    destruct (Nat.eqb_spec (length b) 0) as [Z|Z].
    { destruct b; [|discriminate]. destruct E0 as [->|[? ?]]; [|cbn in *; lia].
      destruct (IH 0 col acc) as [acc' [buf' [i' R]]]; [left; reflexivity|lia|]. exists acc', buf', i'. exact R. }
    destruct (Nat.ltb_spec (length b) i); [lia|].
    assert (Len : length (pending (b :: t) i) = (length b - i) + length (concat t)).
    { unfold pending. cbn. rewrite skipn_length, app_length. lia. }
    destruct (Nat.eqb_spec (Nat.min (length b - i) (n - col)) (length b - i)) as [W|W].
    + assert (X : (if i =? 0 then Some b else bslice b i (Nat.min (length b - i) (n - col))) = Some (skipn i b)).
      { destruct (Nat.eqb_spec i 0) as [->|]; [reflexivity|]. rewrite W, bslice_ok by lia. f_equal. apply firstn_all2. rewrite skipn_length. lia. }
      rewrite X. destruct (IH 0 (col + Nat.min (length b - i) (n - col)) (acc ++ [skipn i b])) as [acc' [buf' [i' [E [P' [Q [R F]]]]]]]; [left; reflexivity|lia|].
      exists (skipn i b :: acc'), buf', i'. rewrite E, <- app_assoc. split; [reflexivity|]. split; [exact P'|].
      assert (PE : pending (b :: t) i = skipn i b ++ pending t 0).
      { unfold pending. cbn. rewrite skipn_app. replace (i - length b) with 0 by lia. reflexivity. }
      split; [cbn; rewrite <- app_assoc, <- Q; exact PE|]. split.
      * cbn. rewrite app_length, skipn_length, R, Len. unfold pending. cbn. lia.
      * constructor; [|exact F]. intros N. apply (f_equal (@length A)) in N. rewrite skipn_length in N. cbn in N. destruct E0 as [->|?]; lia.
    + rewrite bslice_ok by lia. set (tk := Nat.min (length b - i) (n - col)) in *.
      exists [firstn tk (skipn i b)], (b :: t), (i + tk). split; [reflexivity|]. split; [right; exists b, t; split; [reflexivity|lia]|].
      split; [|split].
      * unfold pending. cbn. rewrite app_nil_r, !skipn_app. replace (i - length b) with 0 by lia. replace (i + tk - length b) with 0 by lia.
        rewrite app_assoc. f_equal. rewrite <- (firstn_skipn tk (skipn i b)) at 1. f_equal. apply skipn_skipn'.
      * cbn. rewrite app_nil_r, firstn_length, skipn_length, Len. lia.
      * constructor; [|constructor]. intros N. apply (f_equal (@length A)) in N. rewrite firstn_length, skipn_length in N. cbn in N. lia.
  - exists [], (b :: t), i. rewrite app_nil_r. repeat split; auto. replace (n - col) with 0 by lia. reflexivity.
Qed.

Definition total {A} (s : list (item (list A))) : list A := concat (oks s).
(* every chunk but the last has exactly n rows; none is empty or longer *)
Definition exact_sizes {A} (n : nat) (chunks : list (list A)) : Prop :=
  (forall c, In c chunks -> 0 < length c <= n) /\ (forall c, In c (removelast chunks) -> length c = n).

Lemma unfold_spec : forall {A} n, 0 < n -> forall fuel (c : @chunker A), pos_ok (c_buf c) (c_i c) ->
  length (pending (c_buf c) (c_i c)) + length (total (c_inner c)) + length (c_inner c) < fuel ->
  exists out, unfold_chunks fuel n c = Some out /\ concat (concat (oks out)) = pending (c_buf c) (c_i c) ++ total (c_inner c) /\
    errs out = errs (c_inner c) /\ exact_sizes n (map (@concat A) (oks out)) /\ Forall (Forall (fun p => p <> [])) (oks out).
Proof.
  intros A n Hn. induction fuel as [|fuel IH]; intros c P L; [lia|]. cbn [unfold_chunks]. unfold chunker_next.
  destruct (fill_buffer n (c_inner c) (c_buf c) (c_i c)) as [[inner' buf'] e] eqn:F.
  apply fill_spec in F; [|exact P]. destruct F as [P' [E [R [LI G]]]].
  assert (EL : length (pending buf' (c_i c)) + length (total inner') = length (pending (c_buf c) (c_i c)) + length (total (c_inner c))).
  { rewrite <- !app_length. unfold total. rewrite E. reflexivity. }
  destruct e.
  - destruct (IH {| c_inner := inner'; c_buf := buf'; c_i := c_i c |}) as [out [U [T [Er [S N]]]]]; [exact P'|cbn [c_inner c_buf c_i]; lia|].
    rewrite U. exists (IErr :: out). cbn [c_inner c_buf c_i] in T, Er. split; [reflexivity|]. split; [|split; [|split; [exact S|exact N]]].
    + change (oks (IErr :: out)) with (oks out). unfold total in *. rewrite T. exact E.
    + unfold errs in *. cbn. lia.
  - destruct (collect_spec n buf' (c_i c) 0 []) as [acc [buf2 [i2 [C [P2 [Q [LC NE]]]]]]]; [exact P'|lia|]. rewrite C. cbn [app].
    destruct acc as [|p acc].
    + exists []. split; [reflexivity|]. cbn in LC. rewrite Nat.sub_0_r in LC.
      assert (Z : length (pending buf' (c_i c)) = 0) by lia. destruct (G eq_refl) as [G'|G']; [lia|]. subst inner'.
      unfold total in *. cbn in EL. split; [|split; [cbn in *; lia|split; [split; intros ? []|constructor]]].
      cbn. symmetry. apply length_zero_iff_nil. rewrite app_length. lia.
    + assert (LP : length (concat (p :: acc)) > 0). { inversion NE; subst. cbn. rewrite app_length. destruct p; [congruence|cbn; lia]. }
      rewrite Q, app_length in EL.
      destruct (IH {| c_inner := inner'; c_buf := buf2; c_i := i2 |}) as [out [U [T [Er [S N]]]]]; [exact P2|cbn [c_inner c_buf c_i]; lia|].
      rewrite U. exists (IOk (p :: acc) :: out). cbn [c_inner c_buf c_i] in T, Er.
      split; [reflexivity|]. split; [|split; [|split; [|constructor; assumption]]].
      * change (oks (IOk (p :: acc) :: out)) with ((p :: acc) :: oks out). change (concat ((p :: acc) :: oks out)) with ((p :: acc) ++ concat (oks out)).
        rewrite concat_app, T. unfold total in *. rewrite app_assoc, <- Q. exact E.
      * unfold errs in *. cbn. lia.
      * change (oks (IOk (p :: acc) :: out)) with ((p :: acc) :: oks out). cbn [map]. destruct S as [S1 S2]. split.
        { intros x [<-|Hx]; [lia|auto]. }
        { destruct (oks out) as [|y ys] eqn:EO; [intros x []|]. cbn [map]. cbn [map] in S2. intros x [<-|Hx]; [|apply S2; exact Hx].
          (* a further chunk exists, so the buffer was full *)
          destruct (G eq_refl) as [G'|G']; [lia|]. subst inner'.
          assert (H0 : length (pending buf2 i2) <> 0).
          { specialize (S1 (concat y) (or_introl eq_refl)). intros Z. apply length_zero_iff_nil in Z. cbn in T. rewrite Z in T. cbn in T.
            rewrite concat_app in T. apply (f_equal (@length A)) in T. rewrite app_length in T. cbn in T. lia. }
          rewrite Q, app_length in LC. lia. }
Qed.
Lemma chunk_stream_spec : forall {A} n fuel (s : list (item (list A))), 0 < n -> length (total s) + length s < fuel ->
  exists out, chunk_stream fuel n s = Some out /\ concat (concat (oks out)) = total s /\ errs out = errs s /\
    exact_sizes n (map (@concat A) (oks out)) /\ Forall (Forall (fun p => p <> [])) (oks out).
Proof.
  intros A n fuel s Hn L. unfold chunk_stream.
  destruct (unfold_spec n Hn fuel {| c_inner := s; c_buf := []; c_i := 0 |}) as [out H]; [left; reflexivity|exact L|]. exists out. exact H.
Qed.
Lemma chunk_concat_spec : forall {A} n fuel (s : list (item (list A))), 0 < n -> length (total s) + length s < fuel ->
  exists out, chunk_concat_stream fuel n s = Some out /\ concat (oks out) = total s /\ errs out = errs s /\ exact_sizes n (oks out).
Proof.
  intros A n fuel s Hn L. destruct (chunk_stream_spec n fuel s Hn L) as [out [E [T [R [S _]]]]].
  unfold chunk_concat_stream. rewrite E. cbn [option_map]. eexists. split; [reflexivity|].
  assert (O : forall l : list (item (list (list A))), oks (map (fun x => match x with IOk l => IOk (concat l) | IErr => IErr end) l) = map (@concat A) (oks l)).
  { induction l as [|[x|] l IH]; [reflexivity| |]; cbn; [f_equal|]; exact IH. }
  assert (R' : forall l : list (item (list (list A))), errs (map (fun x => match x with IOk l => IOk (concat l) | IErr => IErr end) l) = errs l).
  { unfold errs. induction l as [|[x|] l IH]; [reflexivity| |]; cbn; [|f_equal]; exact IH. }
  rewrite O, R'. split; [|auto]. rewrite <- T. clear. induction (oks out) as [|x l IH]; [reflexivity|]. cbn. rewrite concat_app, IH. reflexivity.
Qed.

(* ---- break_stream ---- *)
Lemma mod_below n a : n <> 0 -> a < n -> a mod n = a. Proof. intros. apply Nat.mod_small. assumption. Qed.

(* the pieces of one batch starting at global offset o, seen = o mod n *)
Lemma break_batch_spec : forall {A} n, 0 < n -> forall fuel (b : list A) o, length b < fuel ->
  exists l, break_batch fuel n (o mod n) (length b) b = Some l /\ concat l = b /\ Forall (fun p => p <> []) l /\
    (forall e, In e (ends o l) <-> (o < e <= o + length b /\ (e = o + length b \/ e mod n = 0))).
Proof.
  intros A n Hn. assert (N0 : n <> 0) by lia. induction fuel as [|fuel IH]; intros b o L; [lia|]. cbn [break_batch].
  pose proof (Nat.mod_upper_bound o n N0) as M. pose proof (Nat.div_mod o n N0) as D.
  destruct (Nat.eqb_spec (length b) 0) as [Z|Z].
  { exists []. destruct b; [|discriminate]. split; [reflexivity|]. split; [reflexivity|]. split; [constructor|]. intros e. cbn. split; [tauto|lia]. }
  destruct (Nat.leb_spec (length b + o mod n) n) as [S|S].
  { exists [b]. split; [reflexivity|]. split; [cbn; apply app_nil_r|]. split; [constructor; [intros ->; cbn in Z; lia|constructor]|].
    intros e. cbn. split.
    - intros [<-|[]]. lia.
    - intros [[H1 H2] [->|H3]]; [auto|]. left.
      (* a multiple of n in (o, o + length b] is o + length b *)
      pose proof (Nat.div_mod e n N0) as De. rewrite H3 in De.
      assert (o / n < e / n) by nia. assert (n * (o / n + 1) <= e) by nia. nia. }
  destruct (Nat.ltb_spec n (o mod n)); [lia|].
  set (k := n - o mod n). rewrite bslice_ok by lia. rewrite bslice_ok by lia. cbn [skipn].
  assert (FA : firstn (length b - k) (skipn k b) = skipn k b) by (apply firstn_all2; rewrite skipn_length; lia). rewrite FA.
  assert (OK0 : (o + k) mod n = 0). { replace (o + k) with ((o / n + 1) * n) by nia. apply Nat.mod_mul. exact N0. }
  destruct (IH (skipn k b) (o + k)) as [l [E [C [F I]]]]; [rewrite skipn_length; lia|].
  rewrite OK0, skipn_length in E. rewrite E. exists (firstn k b :: l). split; [reflexivity|]. split; [cbn; rewrite C; apply firstn_skipn|].
  assert (LK : length (firstn k b) = k) by (rewrite firstn_length; lia).
  split; [constructor; [intros X; rewrite X in LK; cbn in LK; lia|exact F]|].
  intros e. cbn [ends In]. rewrite LK, I, skipn_length. split.
  - intros [<-|[H1 H2]]; [split; [lia|right; exact OK0]|]. split; [lia|]. destruct H2 as [->|H2]; [left; lia|right; exact H2].
  - intros [[H1 H2] H3]. destruct (Nat.eq_dec e (o + k)) as [->|NE]; [left; reflexivity|]. right.
    assert (o + k < e).
    { destruct H3 as [->|H3]; [lia|]. pose proof (Nat.div_mod e n N0) as De. rewrite H3 in De.
      assert (o / n < e / n) by nia. assert (n * (o / n + 1) <= e) by nia. assert (o + k = n * (o / n + 1)) by nia. lia. }
    split; [lia|]. destruct H3 as [->|H3]; [left; lia|right; exact H3].
Qed.

Lemma ends_app : forall {A} (l1 l2 : list (list A)) o, ends o (l1 ++ l2) = ends o l1 ++ ends (o + length (concat l1)) l2.
Proof.
  induction l1 as [|b l1 IH]; intros l2 o; cbn; [rewrite Nat.add_0_r; reflexivity|]. rewrite IH, app_length. f_equal. f_equal. f_equal. lia.
Qed.
Lemma ends_range : forall {A} (l : list (list A)) o e, In e (ends o l) -> o <= e <= o + length (concat l).
Proof. induction l as [|b l IH]; intros o e; cbn; [tauto|]. rewrite app_length. intros [<-|H]; [lia|]. apply IH in H. lia. Qed.
Lemma ends_total : forall {A} (l : list (list A)) o e, o < e -> e = o + length (concat l) -> In e (ends o l).
Proof.
  induction l as [|b l IH]; intros o e H E; cbn in *; [lia|]. rewrite app_length in E.
  destruct (length (concat l)) eqn:Z; [left; lia|right]. apply IH; lia.
Qed.
Lemma break_loop_spec : forall {A} n, 0 < n -> forall (s : list (item (list A))) o,
  exists out, break_loop n (o mod n) s = Some out /\ total out = total s /\ errs out = errs s /\ Forall (fun p => p <> []) (oks out) /\
    (forall e, In e (ends o (oks out)) <-> (o < e <= o + length (total s) /\ (In e (ends o (oks s)) \/ e mod n = 0))).
Proof.
  intros A n Hn. assert (N0 : n <> 0) by lia. induction s as [|[b|] s IH]; intros o.
  - exists []. cbn. repeat split; auto; lia.
  - cbn [break_loop]. destruct (Nat.eqb_spec n 0); [lia|].
    destruct (break_batch_spec n Hn (S (length b)) b o) as [l [E [C [F I]]]]; [lia|]. rewrite E.
    destruct (IH (o + length b)) as [out [E2 [T [R [F2 I2]]]]].
    rewrite Nat.add_mod_idemp_l by exact N0. rewrite E2. exists (map IOk l ++ out).
    assert (OM : oks (map IOk l ++ out) = l ++ oks out).
    { unfold oks. rewrite flat_map_app. f_equal. clear. induction l; cbn; [|f_equal]; auto. }
    split; [reflexivity|]. split; [unfold total in *; rewrite OM, concat_app, C, T; reflexivity|].
    split; [|split].
    + unfold errs in *. rewrite filter_app, app_length, R. replace (filter _ (map IOk l)) with (@nil (item (list A))); [reflexivity|].
      clear. induction l; cbn; auto.
    + rewrite OM. apply Forall_app. auto.
    + intros e. rewrite OM, ends_app, in_app_iff, I, C, I2. unfold total. cbn [oks flat_map app]. fold (oks s). change (concat (b :: oks s)) with (b ++ concat (oks s)).
      rewrite app_length. change (ends o (b :: oks s)) with ((o + length b) :: ends (o + length b) (oks s)). cbn [In]. fold (total s).
      assert (ER : forall e, In e (ends (o + length b) (oks s)) -> o + length b <= e <= o + length b + length (total s)) by (intros; apply ends_range; assumption).
      split.
      * intros [[H1 [->|H2]]|[H1 H2]]; (split; [lia|]); auto. destruct H2; auto.
      * intros [H1 [[<-|H2]|H2]].
        { left. lia. }
        { pose proof (ER e H2). destruct (Nat.eq_dec e (o + length b)) as [->|]; [left; split; [|left; reflexivity]|right; split; [lia|left; exact H2]].
          lia. }
        { destruct (le_lt_dec e (o + length b)); [left; split; [lia|right; exact H2]|right; split; [lia|right; exact H2]]. }
  - cbn [break_loop]. destruct (IH o) as [out [E [T [R [F I]]]]]. rewrite E. exists (IErr :: out). split; [reflexivity|].
    split; [exact T|]. split; [unfold errs in *; cbn; lia|]. split; [exact F|exact I].
Qed.

(* no piece crosses a multiple of n *)
Lemma no_cross : forall {A} n (l : list (list A)) o, 0 < n ->
  (forall e, o < e <= o + length (concat l) -> e mod n = 0 -> In e (ends o l)) -> Forall (fun p => p <> []) l ->
  forall l1 p l2, l = l1 ++ p :: l2 -> exists q, q * n <= o + length (concat l1) /\ o + length (concat l1) + length p <= (q + 1) * n.
Proof.
  intros A n l o Hn H F l1 p l2 ->. set (a := o + length (concat l1)). exists (a / n). assert (N0 : n <> 0) by lia.
  pose proof (Nat.div_mod a n N0) as D. pose proof (Nat.mod_upper_bound a n N0) as M. split; [nia|].
  destruct (le_lt_dec (a + length p) ((a / n + 1) * n)) as [|G]; [assumption|]. exfalso.
  assert (X : In ((a / n + 1) * n) (ends o (l1 ++ p :: l2))).
  { apply H; [|apply Nat.mod_mul; exact N0]. rewrite concat_app, app_length. cbn. rewrite app_length. subst a. nia. }
  rewrite ends_app, in_app_iff in X. destruct X as [X|X].
  - apply ends_range in X. fold a in X. nia.
  - cbn [ends In] in X. fold a in X. destruct X as [X|X]; [lia|]. apply ends_range in X. nia.
Qed.
Lemma break_stream_spec : forall {A} n (s : list (item (list A))), 0 < n ->
  exists out, break_stream n s = Some out /\ total out = total s /\ errs out = errs s /\ Forall (fun p => p <> []) (oks out) /\
    (* pieces end exactly where an input batch ends or n rows have passed *)
    (forall e, In e (ends 0 (oks out)) <-> (0 < e <= length (total s) /\ (In e (ends 0 (oks s)) \/ e mod n = 0))) /\
    (forall l1 p l2, oks out = l1 ++ p :: l2 -> exists q, q * n <= length (concat l1) /\ length (concat l1) + length p <= (q + 1) * n).
Proof.
  intros A n s Hn. destruct (break_loop_spec n Hn s 0) as [out [E [T [R [F I]]]]]. rewrite Nat.mod_0_l in E by lia.
  exists out. split; [exact E|]. split; [exact T|]. split; [exact R|]. split; [exact F|]. split; [exact I|].
  intros l1 p l2 EO. apply (no_cross n (oks out) 0 Hn) with (l2 := l2); auto. intros e He Me. apply I. split; [|auto].
  unfold total in T. rewrite T in He. exact He.
Qed.
(* chunk size 0 drops everything *)
Lemma chunk_zero : forall {A} (s : list (item (list A))) fuel, chunk_stream (S fuel) 0 s = Some [].
Proof. intros A s fuel. unfold chunk_stream. cbn. destruct s; reflexivity. Qed.

Definition rows (a n : nat) : item (list nat) := IOk (seq a n).
Example chunk_ex : chunk_concat_stream 60 10 [rows 0 10; rows 10 5; IErr; rows 15 13; rows 28 0] =
  Some [rows 0 10; IErr; rows 10 10; rows 20 8].
Proof. reflexivity. Qed.
Example break_ex : break_stream 10 [rows 0 3; rows 3 5; rows 8 8; rows 16 3; rows 19 5] =
  Some [rows 0 3; rows 3 5; rows 8 2; rows 10 6; rows 16 3; rows 19 1; rows 20 4].
Proof. reflexivity. Qed.
