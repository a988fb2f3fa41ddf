(* Proofs about OneFileModel: ranges and takes over the batches of a file of format 1. *)
From Coq Require Import List Arith Bool Lia Permutation Sorted.
From Verif Require Import OneFileModel.
Import ListNotations.
Local Open Scope nat_scope.

Fixpoint offs {A} (a : nat) (bs : list (list A)) : list nat := a :: match bs with [] => [] | l :: r => offs (a + length l) r end.

Lemma offs_last : forall A (bs : list (list A)) a d, last (offs a bs) d = a + length (concat bs).
Proof.
  induction bs as [|l r IH]; intros a d; [cbn; lia|].
  cbn [offs concat]. rewrite app_length. specialize (IH (a + length l) d).
  destruct (offs (a + length l) r) as [|x y] eqn:E; [destruct r; discriminate|].
  change (last (x :: y) d = a + (length l + length (concat r))). rewrite IH. lia.
Qed.

Lemma offs_snoc : forall A (bs : list (list A)) l a, offs a (bs ++ [l]) = offs a bs ++ [a + length (concat bs) + length l].
Proof.
  induction bs as [|x r IH]; intros l a; cbn [offs app concat length].
  - f_equal. rewrite Nat.add_0_r. reflexivity.
  - rewrite IH. rewrite app_length. f_equal. cbn [app]. do 2 f_equal. f_equal. lia.
Qed.

Lemma offs_length : forall A (bs : list (list A)) a, length (offs a bs) = S (length bs).
Proof. induction bs as [|x r IH]; intros a; cbn [offs length]; [reflexivity|]. now rewrite IH. Qed.

Lemma offs_skipn : forall A b (bs : list (list A)) a, b <= length bs -> skipn b (offs a bs) = offs (a + length (concat (firstn b bs))) (skipn b bs).
Proof.
  induction b as [|b IH]; intros bs a H.
  - cbn [skipn firstn concat length]. now rewrite Nat.add_0_r.
  - destruct bs as [|l r]; [cbn in H; lia|]. cbn [offs skipn firstn concat length] in *.
    rewrite app_length, Nat.add_assoc. apply IH. lia.
Qed.

Lemma offs_nth : forall A b (bs : list (list A)) a, b <= length bs -> nth_error (offs a bs) b = Some (a + length (concat (firstn b bs))).
Proof.
  induction b as [|b IH]; intros bs a H.
  - destruct bs; cbn; now rewrite Nat.add_0_r.
  - destruct bs as [|l r]; [cbn in H; lia|]. cbn [offs nth_error firstn concat length] in *.
    rewrite app_length, Nat.add_assoc. apply IH. lia.
Qed.

Lemma fold_sum : forall A (w : list (list A)) n, fold_left (fun n b => n + length b) w n = n + length (concat w).
Proof. induction w as [|b w IH]; intros n; cbn [fold_left concat]; [cbn; lia|]. rewrite IH, app_length. lia. Qed.

Definition offsets_for {A} (bs : list (list A)) : list nat := match bs with [] => [] | _ => offs 0 bs end.
Definition written {A} (ws : list (list (list A))) : list (list A) := map (@concat A) (filter (fun w => match w with [] => false | _ => true end) ws).

Lemma write_gen : forall A (ws : list (list (list A))) bs, fold_left write1 ws (offsets_for bs, bs) = (offsets_for (bs ++ written ws), bs ++ written ws).
Proof.
  induction ws as [|w ws IH]; intros bs; unfold written; cbn [fold_left filter map].
  - now rewrite app_nil_r.
  - destruct w as [|b w]; [apply IH|].
    cbn [map]. replace (bs ++ concat (b :: w) :: map (concat (A:=A)) (filter (fun w0 => match w0 with [] => false | _ :: _ => true end) ws))
      with ((bs ++ [concat (b :: w)]) ++ written ws) by (rewrite <- app_assoc; reflexivity).
    rewrite <- IH. f_equal. unfold write1. cbn [fst snd]. f_equal.
    rewrite fold_sum. cbn [Nat.add]. unfold offsets_for.
    destruct bs as [|x r]; [reflexivity|].
    transitivity (offs 0 ((x :: r) ++ [concat (b :: w)])); [|reflexivity].
    rewrite offs_snoc. unfold push_batch_length. cbn [offs]. fold (offs 0 (x :: r)).
    change (0 :: offs (0 + length x) r) with (offs 0 (x :: r)). rewrite offs_last. reflexivity.
Qed.

Lemma write_file_is : forall A (ws : list (list (list A))), write_file ws = (offsets_for (written ws), written ws).
Proof. intros A ws. exact (write_gen A ws []). Qed.

Lemma written_rows : forall A (ws : list (list (list A))), concat (written ws) = concat (map (@concat A) ws).
Proof. induction ws as [|[|b w] ws IH]; cbn; [reflexivity|exact IH|]. unfold written in IH. cbn in IH. now rewrite IH. Qed.

Lemma walk_cons : forall A (r : list (list A)) n a b s e,
  walk (a :: offs n r) b s e = if e <=? a then [] else (b, (Nat.max s a - a, Nat.min e n - a)) :: walk (offs n r) (S b) s e.
Proof. intros A r n a b s e. destruct r; reflexivity. Qed.

Section Range.
  Context {A : Type}.
  Variable rd : nat -> nat -> nat -> option (list A).

  Lemma walk_tail : forall bs a b s e, s <= a -> e <= a + length (concat bs) ->
    (forall k l x y, nth_error bs k = Some l -> x <= y <= length l -> x < y \/ l = [] -> rd (b + k) x y = Some (firstn (y - x) (skipn x l))) ->
    collect (fun x => rd (fst x) (fst (snd x)) (snd (snd x))) (walk (offs a bs) b s e) = Some (firstn (e - a) (concat bs)).
  Proof.
    induction bs as [|l r IH]; intros a b s e Hs He R.
    - cbn. destruct (e - a); reflexivity.
    - cbn [offs concat] in *. rewrite app_length in He.
      rewrite walk_cons.
      destruct (Nat.leb_spec e a) as [L|L].
      + replace (e - a) with 0 by lia. reflexivity.
      + cbn [collect fst snd].
        assert (E : rd b (Nat.max s a - a) (Nat.min e (a + length l) - a) = Some (firstn (Nat.min (e - a) (length l)) l)).
        { assert (H := R 0 l (Nat.max s a - a) (Nat.min e (a + length l) - a) eq_refl). rewrite Nat.add_0_r in H.
          rewrite H; [|lia|destruct l; [right; reflexivity|left; cbn [length]; lia]].
          replace (Nat.max s a - a) with 0 by lia. cbn [skipn]. do 2 f_equal. lia. }
        rewrite E. rewrite (IH (a + length l) (S b) s e); [|lia|lia|].
        * f_equal. rewrite firstn_app. f_equal.
          -- destruct (Nat.le_ge_cases (e - a) (length l)) as [Q|Q]; [now rewrite Nat.min_l by lia|].
             rewrite Nat.min_r by lia. now rewrite firstn_all, firstn_all2 by lia.
          -- f_equal. lia.
        * intros k l' x y Hk. replace (S b + k) with (b + S k) by lia. apply R. exact Hk.
  Qed.

  Lemma walk_in : forall l r a b s e, a <= s -> s < a + length l -> s < e -> e <= a + length (concat (l :: r)) ->
    (forall k m x y, nth_error (l :: r) k = Some m -> x <= y <= length m -> x < y \/ m = [] -> rd (b + k) x y = Some (firstn (y - x) (skipn x m))) ->
    collect (fun x => rd (fst x) (fst (snd x)) (snd (snd x))) (walk (offs a (l :: r)) b s e) = Some (firstn (e - s) (skipn (s - a) (concat (l :: r)))).
  Proof.
    intros l r a b s e H1 H2 H3 He R. cbn [offs concat] in *. rewrite app_length in He.
    rewrite walk_cons.
    destruct (Nat.leb_spec e a) as [L|L]; [lia|]. cbn [collect fst snd].
    assert (E : rd b (Nat.max s a - a) (Nat.min e (a + length l) - a) = Some (firstn (Nat.min e (a + length l) - s) (skipn (s - a) l))).
    { assert (H := R 0 l (Nat.max s a - a) (Nat.min e (a + length l) - a) eq_refl). rewrite Nat.add_0_r in H.
      rewrite H; [|lia|left; lia]. f_equal. f_equal; [lia|]. f_equal. lia. }
    rewrite E. rewrite (walk_tail r (a + length l) (S b) s e); [|lia|lia|].
    - f_equal. rewrite skipn_app. replace (s - a - length l) with 0 by lia. cbn [skipn].
      rewrite firstn_app, skipn_length. f_equal.
      + destruct (Nat.le_ge_cases e (a + length l)) as [Q|Q]; [now rewrite Nat.min_l by lia|].
        rewrite Nat.min_r by lia. rewrite !firstn_all2; [reflexivity| |]; rewrite skipn_length; lia.
      + f_equal. lia.
    - intros k l' x y Hk. replace (S b + k) with (b + S k) by lia. apply R. exact Hk.
  Qed.

  (* the whole walk, from a batch that begins at s or has s within *)
  Lemma walk_from : forall bs b s e, b <= length bs -> s < e -> e <= length (concat bs) ->
    length (concat (firstn b bs)) <= s ->
    length (concat (firstn b bs)) = s \/ (exists l, nth_error bs b = Some l /\ s < length (concat (firstn b bs)) + length l) ->
    (forall k l x y, nth_error bs k = Some l -> x <= y <= length l -> x < y \/ l = [] -> rd k x y = Some (firstn (y - x) (skipn x l))) ->
    collect (fun x => rd (fst x) (fst (snd x)) (snd (snd x))) (walk (skipn b (offs 0 bs)) b s e) = Some (firstn (e - s) (skipn s (concat bs))).
  Proof.
    intros bs b s e Hb Hse He Ha C R. rewrite (offs_skipn _ b bs 0 Hb). cbn [Nat.add].
    set (a := length (concat (firstn b bs))) in *.
    assert (S1 : concat bs = concat (firstn b bs) ++ concat (skipn b bs)) by (now rewrite <- concat_app, firstn_skipn).
    assert (S2 : forall s', a <= s' -> skipn s' (concat bs) = skipn (s' - a) (concat (skipn b bs))).
    { intros s' Q. rewrite S1, skipn_app. fold a. rewrite skipn_all2 by (fold a; lia). reflexivity. }
    assert (S3 : length (concat bs) = a + length (concat (skipn b bs))) by (rewrite S1, app_length; reflexivity).
    assert (R' : forall k l x y, nth_error (skipn b bs) k = Some l -> x <= y <= length l -> x < y \/ l = [] -> rd (b + k) x y = Some (firstn (y - x) (skipn x l))).
    { intros k l x y Hk. apply R. rewrite <- (firstn_skipn b bs), nth_error_app2 by (rewrite firstn_length; lia).
      rewrite firstn_length. replace (b + k - Nat.min b (length bs)) with k by lia. exact Hk. }
    rewrite S2 by lia.
    destruct C as [C|(l & Hl & C)].
    - rewrite walk_tail; [|lia|lia|exact R']. rewrite C. now rewrite Nat.sub_diag.
    - destruct (skipn b bs) as [|l' r] eqn:K.
      { assert (Q : length (skipn b bs) = 0) by now rewrite K. rewrite skipn_length in Q.
        assert (nth_error bs b <> None) by congruence. apply nth_error_Some in H. lia. }
      assert (l' = l).
      { rewrite <- (firstn_skipn b bs), nth_error_app2 in Hl by (rewrite firstn_length; lia).
        rewrite firstn_length in Hl. replace (b - Nat.min b (length bs)) with 0 in Hl by lia. rewrite K in Hl. cbn in Hl. congruence. }
      subst l'. apply walk_in; try lia. exact R'.
  Qed.
End Range.

(* what the standard library says of slice::binary_search on a sorted slice *)
Definition searches (search : list nat -> nat -> nat + nat) : Prop :=
  forall o x, StronglySorted le o ->
    match search o x with
    | inl i => nth_error o i = Some x
    | inr i => i <= length o /\ (forall j y, nth_error o j = Some y -> (j < i -> y < x) /\ (i <= j -> x < y))
    end.

Lemma offs_sorted : forall A (bs : list (list A)) a, StronglySorted le (offs a bs) /\ Forall (le a) (offs a bs).
Proof.
  induction bs as [|l r IH]; intros a; cbn [offs].
  - split; repeat constructor.
  - destruct (IH (a + length l)) as [S F].
    assert (G : Forall (le a) (offs (a + length l) r)) by (eapply Forall_impl; [|exact F]; cbn; intros; lia).
    split; constructor; auto.
Qed.

Lemma concat_firstn_S : forall A b (bs : list (list A)) l, nth_error bs b = Some l -> length (concat (firstn (S b) bs)) = length (concat (firstn b bs)) + length l.
Proof.
  induction b as [|b IH]; intros bs l H; destruct bs as [|x r]; try discriminate.
  - cbn in H. injection H as ->. cbn [firstn concat length]. rewrite app_nil_r. reflexivity.
  - cbn in H. change (firstn (S (S b)) (x :: r)) with (x :: firstn (S b) r). change (firstn (S b) (x :: r)) with (x :: firstn b r).
    cbn [concat]. rewrite !app_length, (IH r l H). lia.
Qed.

Theorem range_right : forall A search (rd : nat -> nat -> nat -> option (list A)) (ws : list (list (list A))) s e,
  searches search ->
  (forall b l x y, nth_error (snd (write_file ws)) b = Some l -> x <= y <= length l -> x < y \/ l = [] ->
     rd b x y = Some (firstn (y - x) (skipn x l))) ->
  s < e ->
  let rows := concat (map (@concat A) ws) in
  (e <= length rows -> read_range search rd (fst (write_file ws)) s e = Some (firstn (e - s) (skipn s rows))) /\
  (length rows < e -> read_range search rd (fst (write_file ws)) s e = None).
Proof.
  intros A search rd ws s e HS R Hse rows. rewrite (write_file_is A ws) in *. cbn [fst snd] in *.
  unfold rows. rewrite <- (written_rows A ws). set (bs := written ws) in *. clearbody bs.
  unfold read_range. destruct (Nat.leb_spec e s) as [L|_]; [lia|].
  unfold offsets_for. destruct bs as [|b0 r0]; [cbn; split; [lia|reflexivity]|].
  set (bs := b0 :: r0) in *.
  assert (NE : offs 0 bs = 0 :: tl (offs 0 bs)) by reflexivity. clearbody bs.
  unfold range_to_batches. rewrite NE. rewrite <- NE. rewrite offs_last. cbn [Nat.add].
  destruct (Nat.ltb_spec (length (concat bs)) e) as [L|L]; (split; [|try reflexivity]); try lia.
  intros He. assert (HH := HS (offs 0 bs) s (proj1 (offs_sorted A bs 0))).
  assert (NW : forall b, b <= length bs -> length (concat (firstn b bs)) <= s ->
     length (concat (firstn b bs)) = s \/ (exists l, nth_error bs b = Some l /\ s < length (concat (firstn b bs)) + length l) ->
     match walk (skipn b (offs 0 bs)) b s e with [] => None | _ :: _ => collect (fun x => rd (fst x) (fst (snd x)) (snd (snd x))) (walk (skipn b (offs 0 bs)) b s e) end = Some (firstn (e - s) (skipn s (concat bs)))).
  { intros b Hb Ha C. assert (W := walk_from rd bs b s e Hb Hse He Ha C R).
    destruct (walk (skipn b (offs 0 bs)) b s e) eqn:K; [|exact W].
    cbn [collect] in W. injection W as W. exfalso. apply (f_equal (@length A)) in W. rewrite firstn_length, skipn_length in W. cbn [length] in W. lia. }
  destruct (search (offs 0 bs) s) as [b|b].
  - assert (Hb : b < length (offs 0 bs)) by (apply nth_error_Some; congruence). rewrite offs_length in Hb.
    rewrite offs_nth in HH by lia. injection HH as HH. cbn [Nat.add] in HH.
    specialize (NW b ltac:(lia) ltac:(lia) (or_introl HH)).
    destruct (walk (skipn b (offs 0 bs)) b s e); exact NW.
  - destruct HH as [Hb HH]. rewrite offs_length in Hb. destruct b as [|b].
    { destruct (HH 0 0 ltac:(rewrite NE; reflexivity)) as [_ Q]. specialize (Q (le_n _)). lia. }
    assert (N := offs_nth A b bs 0 ltac:(lia)). cbn [Nat.add] in N.
    destruct (HH _ _ N) as [Q _]. specialize (Q ltac:(lia)).
    destruct (nth_error bs b) as [l|] eqn:E.
    + assert (Hb2 : b < length bs) by (apply nth_error_Some; congruence).
      assert (N2 := offs_nth A (S b) bs 0 ltac:(lia)). cbn [Nat.add] in N2. destruct (HH _ _ N2) as [_ Q2]. specialize (Q2 (le_n _)).
      rewrite (concat_firstn_S A b bs l E) in Q2.
      specialize (NW b ltac:(lia) ltac:(lia) (or_intror (ex_intro _ l (conj E Q2)))).
      destruct (walk (skipn b (offs 0 bs)) b s e); exact NW.
    + apply nth_error_None in E. assert (b = length bs) by lia. subst b. rewrite firstn_all in Q. lia.
Qed.
