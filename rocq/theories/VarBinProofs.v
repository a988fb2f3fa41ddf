(* Variable length encoding of format 1 (C139). *)
From Coq Require Import List Arith Bool Lia Sorted.
From Verif Require Import Lib VarBinModel.
Import ListNotations.
Local Open Scope nat_scope.

Section VarBin.
  Context {B : Type}.
  Notation row := (list B).
  (* the rows of an array *)
  Fixpoint rows_of (offsets : list nat) (data : list B) : list row :=
    match offsets with a :: t => match t with b :: _ => firstn (b - a) (skipn a data) :: rows_of t data | [] => [] end | [] => [] end.
  Definition barray_ok (a : barray B) : Prop := b_offsets a <> [] /\ StronglySorted le (b_offsets a) /\ Forall (fun o => o <= length (b_data a)) (b_offsets a).
  Definition all_rows (arrs : list (barray B)) : list row := flat_map (fun a => rows_of (b_offsets a) (b_data a)) arrs.
  (* what a row is read as *)
  Definition seen (nullable : bool) (r : row) : option row := match r with [] => if nullable then None else Some [] | _ => Some r end.

  Fixpoint offs (k : nat) (rs : list row) : list nat := k :: match rs with [] => [] | r :: l => offs (k + length r) l end.
  Lemma offs_length k rs : length (offs k rs) = S (length rs).
  Proof. revert k. induction rs as [|r l IH]; intros k; cbn; [reflexivity|]. f_equal. apply IH. Qed.
  Lemma offs_last k rs d : last (offs k rs) d = k + length (concat rs).
  Proof.
    revert k. induction rs as [|r l IH]; intros k; [cbn; lia|]. cbn [offs concat]. rewrite app_length. transitivity (last (offs (k + length r) l) d); [destruct l; reflexivity|]. rewrite IH. lia.
  Qed.
  Lemma offs_nth k rs n : n <= length rs -> nth n (offs k rs) 0 = k + length (concat (firstn n rs)).
  Proof.
    revert k n. induction rs as [|r l IH]; intros k [|n] H; cbn in *; try lia. rewrite IH by lia. rewrite app_length. lia.
  Qed.
  Lemma offs_skipn k rs n : n <= length rs -> skipn n (offs k rs) = offs (k + length (concat (firstn n rs))) (skipn n rs).
  Proof.
    revert k n. induction rs as [|r l IH]; intros k [|n] H; cbn [skipn firstn concat length] in *; try (rewrite Nat.add_0_r; reflexivity); try lia. cbn [offs skipn]. rewrite IH by lia. rewrite app_length, Nat.add_assoc. reflexivity.
  Qed.
  Lemma offs_firstn k rs n : firstn (S n) (offs k rs) = offs k (firstn n rs).
  Proof. revert k n. induction rs as [|r l IH]; intros k [|n]; cbn; auto. f_equal. apply IH. Qed.
  Lemma offs_slice k rs s n : s <= length rs -> vslice s (S n) (offs k rs) = offs (k + length (concat (firstn s rs))) (vslice s n rs).
  Proof. intros H. unfold vslice. rewrite offs_skipn by exact H. apply offs_firstn. Qed.
  Lemma offs_sub c k rs : map (fun p => p - c) (offs (c + k) rs) = offs k rs.
  Proof. revert k. induction rs as [|r l IH]; intros k; cbn; [f_equal; lia|]. f_equal; [lia|]. rewrite <- Nat.add_assoc. apply IH. Qed.
  Lemma offs_sub0 c rs : map (fun p => p - c) (offs c rs) = offs 0 rs.
  Proof. rewrite <- (offs_sub c 0 rs), Nat.add_0_r. reflexivity. Qed.
  Lemma offs_move h k z rs : map (fun o => o - h + k) (offs (h + z) rs) = offs (z + k) rs.
  Proof. revert z. induction rs as [|r l IH]; intros z; cbn; [f_equal; lia|]. f_equal; [lia|]. rewrite <- Nat.add_assoc, IH. f_equal. lia. Qed.
  Lemma offs_app k r1 r2 : offs k (r1 ++ r2) = offs k r1 ++ tl (offs (k + length (concat r1)) r2).
  Proof. revert k. induction r1 as [|r l IH]; intros k; cbn; [rewrite Nat.add_0_r; destruct r2; reflexivity|]. f_equal. rewrite IH, app_length, Nat.add_assoc. reflexivity. Qed.

  Lemma rows_spec o data : o <> [] -> StronglySorted le o -> Forall (fun x => x <= length data) o ->
    o = offs (hd 0 o) (rows_of o data) /\ vslice (hd 0 o) (last o 0 - hd 0 o) data = concat (rows_of o data).
  Proof.
    intros Hn St F. induction St as [|a l St IH Fa]; [congruence|]. destruct l as [|b l]; [cbn; rewrite Nat.sub_diag; auto|]. inversion F as [|? ? F1 F2]; subst. destruct IH as [I1 I2]; [discriminate|exact F2|]. inversion F2 as [|? ? F3 _]; subst. inversion Fa as [|? ? Fb _]; subst.
    assert (Hl : b <= last (b :: l) 0). { clear -St. destruct (@exists_last _ (b :: l) ltac:(discriminate)) as (x&y&E). rewrite E, last_last. destruct x as [|z x]; cbn in E; injection E as E1 E2; subst; [lia|]. inversion St as [|? ? _ Q]; subst. rewrite Forall_forall in Q. apply Q. apply in_or_app. right. left. reflexivity. }
    cbn [hd] in *. change (rows_of (a :: b :: l) data) with (firstn (b - a) (skipn a data) :: rows_of (b :: l) data). change (last (a :: b :: l) 0) with (last (b :: l) 0).
    assert (Lr : length (firstn (b - a) (skipn a data)) = b - a) by (rewrite firstn_length, skipn_length; lia). split.
    - cbn [offs]. rewrite Lr. replace (a + (b - a)) with b by lia. rewrite <- I1. reflexivity.
    - cbn [concat]. rewrite <- I2. unfold vslice. replace (last (b :: l) 0 - a) with ((b - a) + (last (b :: l) 0 - b)) by lia.
      rewrite <- (firstn_skipn (b - a) (skipn a data)) at 1. rewrite firstn_app, Lr. rewrite (firstn_all2 (firstn (b - a) (skipn a data))) by lia. f_equal. rewrite skipn_skipn'. replace (a + (b - a)) with b by lia. f_equal. lia.
  Qed.
  Lemma encode_spec arrs : Forall barray_ok arrs -> forall k, encode_arrays k arrs = (concat (all_rows arrs), tl (offs k (all_rows arrs))).
  Proof.
    induction 1 as [|a l (Hn&St&F) _ IH]; intros k; [reflexivity|]. cbn [encode_arrays]. destruct (rows_spec (b_offsets a) (b_data a) Hn St F) as [R1 R2]. rewrite R2.
    change (all_rows (a :: l)) with (rows_of (b_offsets a) (b_data a) ++ all_rows l). set (ra := rows_of (b_offsets a) (b_data a)) in *. set (h := hd 0 (b_offsets a)) in *.
    assert (Ep : map (fun o => o - h + k) (tl (b_offsets a)) = tl (offs k ra)).
    { rewrite R1. transitivity (tl (map (fun o => o - h + k) (offs h ra))); [destruct ra; reflexivity|]. f_equal. pose proof (offs_move h k 0 ra) as M. rewrite Nat.add_0_r in M. exact M. }
    rewrite Ep. assert (El : last (tl (offs k ra)) k = k + length (concat ra)). { rewrite <- (offs_last k ra k). destruct ra as [|r l']; [reflexivity|]. cbn [offs tl]. destruct l'; reflexivity. }
    rewrite El, IH. rewrite concat_app, offs_app. f_equal. destruct ra; reflexivity.
  Qed.
  Lemma encode_var_spec arrs k : Forall barray_ok arrs -> encode_var k arrs = (concat (all_rows arrs), offs k (all_rows arrs)).
  Proof. intros H. unfold encode_var. rewrite encode_spec by exact H. f_equal. destruct (all_rows arrs); reflexivity. Qed.

  Lemma values_offs nullable rs : forall x y, values nullable (offs (length x) rs) (x ++ concat rs ++ y) = map (seen nullable) rs.
  Proof.
    induction rs as [|r l IH]; intros x y; [reflexivity|]. cbn [offs map concat]. specialize (IH (x ++ r) y). rewrite app_length in IH. rewrite <- !app_assoc in IH.
    assert (E : values nullable (length x :: offs (length x + length r) l) (x ++ (r ++ concat l) ++ y) = (if nullable && (length x =? length x + length r) then None else Some (vslice (length x) (length x + length r - length x) (x ++ (r ++ concat l) ++ y))) :: values nullable (offs (length x + length r) l) (x ++ (r ++ concat l) ++ y)) by (destruct l; reflexivity).
    rewrite E. clear E. f_equal.
    - unfold vslice. rewrite skipn_app, skipn_all, Nat.sub_diag. cbn [skipn app]. replace (length x + length r - length x) with (length r) by lia. rewrite <- app_assoc, firstn_app, Nat.sub_diag, firstn_all. cbn [firstn]. rewrite app_nil_r.
      destruct r as [|b r]; cbn [length seen]; [rewrite Nat.add_0_r, Nat.eqb_refl; destruct nullable; reflexivity|]. destruct (Nat.eqb_spec (length x) (length x + S (length r))); [lia|]. now rewrite andb_false_r.
    - rewrite <- app_assoc. exact IH.
  Qed.

  Section Page.
    Variables (pre post : list B) (rows : list row).
    Notation file := (pre ++ concat rows ++ post).
    Lemma skipn_add {A} n (l1 l2 : list A) : skipn (length l1 + n) (l1 ++ l2) = skipn n l2.
    Proof. rewrite skipn_app, skipn_all2 by lia. cbn. f_equal. lia. Qed.
    Lemma slice_plus {A} s m n (l : list A) : vslice s (m + n) l = vslice s m l ++ vslice (s + m) n l.
    Proof. unfold vslice. rewrite <- skipn_skipn'. generalize (skipn s l). clear. intros l. revert l. induction m as [|m IH]; intros [|x l]; cbn; try rewrite IH; auto. now rewrite firstn_nil. Qed.
    Lemma file_slice a n : a <= length rows -> vslice (length pre + length (concat (firstn a rows))) (length (concat (vslice a n rows))) file = concat (vslice a n rows).
    Proof.
      intros H. unfold vslice at 1. rewrite skipn_add. assert (E : concat rows = concat (firstn a rows) ++ concat (skipn a rows)) by (rewrite <- concat_app, firstn_skipn; reflexivity). rewrite E, <- app_assoc.
      rewrite <- (Nat.add_0_r (length (concat (firstn a rows)))), skipn_add. cbn [skipn]. unfold vslice. assert (E2 : concat (skipn a rows) = concat (firstn n (skipn a rows)) ++ concat (skipn n (skipn a rows))) by (rewrite <- concat_app, firstn_skipn; reflexivity).
      rewrite E2, <- app_assoc. rewrite <- (Nat.add_0_r (length (concat (firstn n (skipn a rows))))), firstn_app_2. cbn. apply app_nil_r.
    Qed.
    Lemma slice_within {A} a b s n (l : list A) : a + b <= n -> vslice a b (vslice s n l) = vslice (s + a) b l.
    Proof. intros H. unfold vslice. rewrite skipn_firstn_comm, firstn_firstn, skipn_skipn'. f_equal. lia. Qed.
    Lemma slice_len {A} s n (l : list A) : s + n <= length l -> length (vslice s n l) = n.
    Proof. intros H. unfold vslice. rewrite firstn_length, skipn_length. lia. Qed.
    (* the positions of the rows from s on, n of them *)
    Definition base s := length pre + length (concat (firstn s rows)).
    Definition part s n := vslice s n rows.
    Lemma range_spec s n a b : s + n <= length rows -> a <= b -> b <= n ->
      range_raw file (offs (base s) (part s n)) a b = Some (offs 0 (part (s + a) (b - a)), concat (part (s + a) (b - a))).
    Proof.
      intros Hs Hab Hb. unfold range_raw. rewrite offs_length. assert (Lp : length (part s n) = n) by (apply slice_len; exact Hs). rewrite Lp. destruct (Nat.leb_spec (S n) b); [lia|].
      rewrite !offs_nth by lia. replace (b - a + 1) with (S (b - a)) by lia. rewrite offs_slice by lia. rewrite offs_sub0.
      assert (Ep : vslice a (b - a) (part s n) = part (s + a) (b - a)) by (apply slice_within; lia). rewrite Ep.
      assert (Eb : base s + length (concat (firstn a (part s n))) = base (s + a)).
      { unfold base, part, vslice. rewrite firstn_firstn, Nat.min_l by lia. replace (firstn (s + a) rows) with (firstn s rows ++ firstn a (skipn s rows)); [rewrite concat_app, app_length; lia|]. pose proof (slice_plus 0 s a rows) as P. unfold vslice in P. cbn [skipn Nat.add] in P. symmetry. exact P. }
      assert (Ee : base s + length (concat (firstn b (part s n))) = base (s + a) + length (concat (part (s + a) (b - a)))).
      { rewrite <- Eb, <- Ep. replace (firstn b (part s n)) with (firstn a (part s n) ++ vslice a (b - a) (part s n)); [rewrite concat_app, app_length; lia|]. pose proof (slice_plus 0 a (b - a) (part s n)) as P. replace (a + (b - a)) with b in P by lia. unfold vslice in P at 1 2. cbn [skipn Nat.add] in P. symmetry. exact P. }
      rewrite Eb, Ee. destruct (Nat.leb_spec (base (s + a) + length (concat (part (s + a) (b - a)))) (base (s + a))) as [H0|H0].
      - destruct (concat (part (s + a) (b - a))); [reflexivity|cbn in H0; lia].
      - replace (base (s + a) + length (concat (part (s + a) (b - a))) - base (s + a)) with (length (concat (part (s + a) (b - a)))) by lia. pose proof (file_slice (s + a) (b - a) ltac:(lia)) as Fs. fold (base (s + a)) in Fs. fold (part (s + a) (b - a)) in Fs. rewrite Fs.
        destruct (Nat.leb_spec (base (s + a) + length (concat (part (s + a) (b - a)))) (length file)) as [_|C]; [reflexivity|]. exfalso. apply (f_equal (@length B)) in Fs. unfold vslice in Fs. rewrite firstn_length, skipn_length in Fs. lia.
    Qed.
    Lemma positions_spec s e : s <= e -> e <= length rows -> get_positions (offs (length pre) rows) (length rows) s e = Some (offs (base s) (part s (e - s))).
    Proof. intros H1 H2. unfold get_positions. destruct (Nat.ltb_spec (length rows + 1) (e + 1)); [lia|]. f_equal. replace (e + 1 - s) with (S (e - s)) by lia. apply offs_slice. lia. Qed.
    Lemma get_spec nullable s e : s <= e -> get_var nullable file (offs (length pre) rows) (length rows) s e = if length rows <? e then None else Some (map (seen nullable) (vslice s (e - s) rows)).
    Proof.
      intros H. unfold get_var. destruct (Nat.ltb_spec (length rows) e) as [C|C].
      - unfold get_positions. destruct (Nat.ltb_spec (length rows + 1) (e + 1)); [reflexivity|lia].
      - rewrite positions_spec by lia. rewrite range_spec by lia. rewrite Nat.add_0_r, Nat.sub_0_r. f_equal. pose proof (values_offs nullable (part s (e - s)) [] []) as V. cbn [length app] in V. rewrite app_nil_r in V. exact V.
    Qed.
  End Page.
End VarBin.
