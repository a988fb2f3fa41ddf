(* Taking rows of variable length by index (C139). *)
From Coq Require Import List Arith Bool Lia Sorted.
From Verif Require Import Lib VarBinModel VarBinProofs.
From Verif Require PlainTake.
Import ListNotations.
Local Open Scope nat_scope.

Lemma last_seq h n : 0 < n -> last (seq h n) 0 = h + n - 1.
Proof. intros H. destruct n as [|n]; [lia|]. rewrite seq_S, last_last. lia. Qed.
Lemma sorted_bounds l : StronglySorted le l -> forall i, In i l -> hd 0 l <= i <= last l 0.
Proof.
  induction 1 as [|x l St IH F]; intros i Hi; [destruct Hi|]. rewrite Forall_forall in F. cbn [hd]. destruct l as [|y l]; [destruct Hi as [<-|[]]; cbn; lia|]. change (last (x :: y :: l) 0) with (last (y :: l) 0).
  assert (Hy : In y (y :: l)) by (left; reflexivity). pose proof (IH y Hy) as [_ L]. pose proof (F y Hy). destruct Hi as [<-|Hi]; [lia|]. pose proof (IH i Hi) as [_ L']. specialize (F i Hi). lia.
Qed.
Lemma sorted_lt_le l : StronglySorted lt l -> StronglySorted le l.
Proof. induction 1 as [|x l _ IH F]; constructor; [exact IH|]. eapply Forall_impl; [|exact F]. cbn. lia. Qed.
Lemma last_in (l : list nat) : l <> [] -> In (last l 0) l.
Proof. intros H. destruct (exists_last H) as (l'&a&->). rewrite last_last. apply in_or_app. right. left. reflexivity. Qed.

(* a chunk that is said to be contiguous is *)
Definition chunk_ok (ch : list nat * bool) : Prop := fst ch <> [] /\ (snd ch = true -> fst ch = seq (hd 0 (fst ch)) (length (fst ch))).
Lemma plan_ok positions min_io l : forall i si sv next contig acc, acc <> [] -> si < i -> i <= next -> next = S (last acc 0) -> StronglySorted lt l -> Forall (fun c => next <= c) l -> chunk_ok (acc, contig) ->
  concat (map fst (plan positions min_io i si sv next contig acc l)) = acc ++ l /\ Forall chunk_ok (plan positions min_io i si sv next contig acc l).
Proof.
  induction l as [|c l IH]; intros i si sv next contig acc Ha Hsi Hi Hn St Fl Ok; cbn [plan]; [cbn; rewrite !app_nil_r; auto|].
  inversion St as [|? ? St1 St2]; inversion Fl as [|? ? Fl1 Fl2]; subst. assert (Fl3 : Forall (fun x => S c <= x) l) by (eapply Forall_impl; [|exact St2]; cbn; lia).
  destruct (Nat.eqb_spec c si); [lia|]. cbn [orb]. destruct (negb _ && _).
  - destruct (IH (S i) i c (S c) true [c]) as [I1 I2]; try assumption; try lia; try discriminate; try reflexivity; [split; [discriminate|reflexivity]|]. cbn [map concat fst]. rewrite I1. split; [reflexivity|]. constructor; assumption.
  - destruct (IH (S i) si sv (S c) (contig && (c =? S (last acc 0))) (acc ++ [c])) as [I1 I2]; try assumption; try lia.
    + destruct acc; discriminate.
    + rewrite last_last. reflexivity.
    + split; cbn [fst snd]; [destruct acc; discriminate|]. intros E. apply andb_true_iff in E. destruct E as [E1 E2]. apply Nat.eqb_eq in E2. destruct Ok as [_ Ok]. specialize (Ok E1). cbn [fst snd] in Ok.
      assert (La : 0 < length acc) by (destruct acc; [congruence|cbn; lia]). assert (Lc : c = hd 0 acc + length acc). { rewrite E2, Ok, last_seq by exact La. rewrite seq_length. destruct acc; [congruence|]. cbn [hd length seq]. cbn in La. lia. }
      assert (Hh : hd 0 (acc ++ [c]) = hd 0 acc) by (destruct acc; [congruence|reflexivity]). rewrite Hh, app_length, Nat.add_1_r, seq_S, <- Ok, <- Lc. reflexivity.
    + rewrite I1, <- app_assoc. split; [reflexivity|exact I2].
Qed.

Section VarBin.
  Context {B : Type}.
  Notation row := (list B).
  Lemma offs_step k (rs : list row) m : m < length rs -> nth (m + 1) (offs k rs) 0 - nth m (offs k rs) 0 = length (nth m rs []).
  Proof.
    revert k m. induction rs as [|r l IH]; intros k m H; cbn in H; [lia|]. destruct m as [|m]; [|cbn; apply IH; lia]. cbn. destruct l; cbn; lia.
  Qed.
  Lemma concat_pick (rs : list row) m : m < length rs -> vslice (nth m (offs 0 rs) 0) (length (nth m rs [])) (concat rs) = nth m rs [].
  Proof.
    intros H. rewrite offs_nth by lia. cbn [Nat.add]. assert (E : concat rs = concat (firstn m rs) ++ nth m rs [] ++ concat (skipn (S m) rs)).
    { clear -H. revert m H. induction rs as [|r l IH]; intros m H; cbn in H; [lia|]. destruct m; cbn; [reflexivity|]. rewrite <- app_assoc. f_equal. apply IH. lia. }
    rewrite E. unfold vslice. rewrite <- (Nat.add_0_r (length (concat (firstn m rs)))), skipn_add. cbn [skipn]. rewrite <- (Nat.add_0_r (length (nth m rs []))), firstn_app_2. cbn. apply app_nil_r.
  Qed.
  Lemma part_nth (rows : list row) s n m : m < n -> nth m (part rows s n) [] = nth (s + m) rows [].
  Proof.
    intros H. unfold part, vslice. revert rows. induction s as [|s IH]; intros rows; [|destruct rows; [cbn; destruct n, m; reflexivity|cbn; apply IH]].
    cbn. revert rows n H. induction m as [|m IH]; intros [|x r] [|n] H; cbn; try lia; auto. apply IH. lia.
  Qed.
  Lemma slice_seq (rows : list row) a n : a + n <= length rows -> vslice a n rows = map (fun i => nth i rows []) (seq a n).
  Proof.
    revert a. induction n as [|n IH]; intros a H; [reflexivity|]. change (S n) with (1 + n). rewrite slice_plus, IH by lia. cbn [seq map Nat.add]. change (?x :: ?y) with ([x] ++ y). f_equal; [|now rewrite Nat.add_1_r].
    unfold vslice. clear IH. revert rows H. induction a as [|a IHa]; intros [|r l] H; cbn in *; try lia; auto. apply IHa. lia.
  Qed.

  Section Page.
    Variables (pre post : list B) (rows : list row) (s n : nat).
    Hypothesis Hn : s + n <= length rows.
    Notation file := (pre ++ concat rows ++ post).
    Notation ps := (offs (base pre rows s) (part rows s n)).
    Let pick i := nth (s + i) rows [].
    Lemma take_one_spec ch : chunk_ok ch -> StronglySorted le (fst ch) -> Forall (fun i => i < n) (fst ch) ->
      take_one file ps ch = Some (concat (map pick (fst ch)), map (fun i => length (pick i)) (fst ch)).
    Proof.
      destruct ch as [req contig]. cbn [fst]. intros [Hne Hc] St F. cbn [fst snd] in *. rewrite Forall_forall in F. pose proof (sorted_bounds req St) as Bd. pose proof (last_in req Hne) as Le. pose proof (Bd _ Le) as Bl. pose proof (F _ Le) as Fl.
      unfold take_one. set (h := hd 0 req) in *. set (e := last req 0) in *. rewrite (range_spec pre post rows s n h (e + 1)) by lia. set (P := part rows (s + h) (e + 1 - h)).
      assert (LP : length P = e + 1 - h) by (apply slice_len; lia). rewrite offs_length, LP.
      replace (existsb _ req) with false. 2:{ symmetry. apply not_true_is_false. intros Ex. apply existsb_exists in Ex. destruct Ex as (i&Hi&Q). specialize (Bd i Hi). apply orb_true_iff in Q. destruct Q as [Q|Q]; [apply Nat.ltb_lt in Q|apply Nat.leb_le in Q]; lia. }
      assert (Pk : forall i, In i req -> nth (i - h) P [] = pick i). { intros i Hi. specialize (Bd i Hi). unfold P. rewrite part_nth by lia. unfold pick. f_equal. lia. }
      assert (Ln : forall i, In i req -> nth (i - h + 1) (offs 0 P) 0 - nth (i - h) (offs 0 P) 0 = length (pick i)). { intros i Hi. rewrite offs_step by (specialize (Bd i Hi); lia). now rewrite Pk. }
      f_equal. f_equal; [|apply map_ext_in; exact Ln]. destruct contig.
      - specialize (Hc eq_refl). assert (Lr : 0 < length req) by (destruct req; [congruence|cbn; lia]). assert (Ee : e = h + length req - 1) by (unfold e; transitivity (last (seq h (length req)) 0); [f_equal; exact Hc|apply last_seq; exact Lr]).
        transitivity (concat (map pick (seq h (length req)))); [|do 2 f_equal; symmetry; exact Hc]. f_equal. unfold P, part. rewrite slice_seq by lia. replace (e + 1 - h) with (length req) by lia. unfold pick. generalize (length req) as m, h as g. clear.
        induction m as [|m IH]; intros g; cbn; [reflexivity|]. f_equal. rewrite <- IH. f_equal. f_equal. lia.
      - rewrite flat_map_concat_map. f_equal. apply map_ext_in. intros i Hi. rewrite Ln by exact Hi. rewrite <- (Pk i Hi). apply concat_pick. specialize (Bd i Hi). lia.
    Qed.
    Lemma take_all_spec l : Forall chunk_ok l -> StronglySorted le (concat (map fst l)) -> Forall (fun i => i < n) (concat (map fst l)) ->
      take_all file ps l = Some (concat (map pick (concat (map fst l))), map (fun i => length (pick i)) (concat (map fst l))).
    Proof.
      induction 1 as [|c l Hc _ IH]; intros St F; [reflexivity|]. cbn [map concat take_all] in *. apply PlainTake.sorted_app in St. destruct St as [S1 S2]. apply Forall_app in F. destruct F as [F1 F2].
      rewrite (take_one_spec c Hc S1 F1), (IH S2 F2). rewrite !map_app, concat_app. reflexivity.
    Qed.
  End Page.
  Lemma offsets_offs k (ps : list row) : offsets_of k (map (@length B) ps) = offs k ps.
  Proof. revert k. induction ps as [|r l IH]; intros k; cbn; [reflexivity|]. f_equal. apply IH. Qed.

End VarBin.

(* whatever range: those rows, or an error if there are not as many *)
Theorem get_var_rows {B} nullable (pre post : list B) (arrs : list (barray B)) s e bs ps : Forall barray_ok arrs -> encode_var (length pre) arrs = (bs, ps) -> s <= e ->
  get_var nullable (pre ++ bs ++ post) ps (length (all_rows arrs)) s e =
  if e <=? length (all_rows arrs) then Some (map (seen nullable) (firstn (e - s) (skipn s (all_rows arrs)))) else None.
Proof.
  intros H E Hse. rewrite encode_var_spec in E by exact H. injection E as <- <-. rewrite get_spec by exact Hse. unfold vslice. destruct (Nat.ltb_spec (length (all_rows arrs)) e), (Nat.leb_spec e (length (all_rows arrs))); try lia; reflexivity.
Qed.
(* indices in order without repeats *)
Theorem take_var_rows {B} min_io nullable (pre post : list B) (arrs : list (barray B)) indices bs ps : Forall barray_ok arrs -> encode_var (length pre) arrs = (bs, ps) ->
  StronglySorted lt indices -> Forall (fun i => i < length (all_rows arrs)) indices ->
  take_var min_io nullable (pre ++ bs ++ post) ps (length (all_rows arrs)) indices = Some (map (fun i => seen nullable (nth i (all_rows arrs) [])) indices).
Proof.
  intros H E St F. rewrite encode_var_spec in E by exact H. injection E as <- <-. set (rows := all_rows arrs) in *. unfold take_var. destruct indices as [|s is] eqn:Ei; [reflexivity|]. rewrite <- Ei in *.
  assert (Hne : indices <> []) by (rewrite Ei; discriminate). pose proof (sorted_bounds _ (sorted_lt_le _ St)) as Bd. assert (Eh : hd 0 indices = s) by (rewrite Ei; reflexivity). rewrite Eh in Bd. set (e := last indices 0) in *.
  pose proof (last_in indices Hne) as Le. fold e in Le. pose proof (Bd e Le) as Bl. rewrite Forall_forall in F. pose proof (F e Le) as Fe. cbv zeta. rewrite positions_spec by lia. set (n := e + 1 - s).
  assert (Ln : length (part rows s n) = n) by (apply slice_len; unfold n; lia). rewrite offs_length, Ln.
  replace (existsb _ indices) with false. 2:{ symmetry. apply not_true_is_false. intros Ex. apply existsb_exists in Ex. destruct Ex as (i&Hi&Q). specialize (Bd i Hi). apply orb_true_iff in Q. unfold n in Q. destruct Q as [Q|Q]; [apply Nat.ltb_lt in Q|apply Nat.leb_le in Q]; lia. }
  set (rel := map (fun i => i - s) indices).
  assert (Sr : StronglySorted lt rel). { unfold rel. assert (G : Forall (fun i => s <= i) indices) by (apply Forall_forall; intros i Hi; apply Bd, Hi). clear -St G. induction St as [|x l _ IH Q]; cbn; constructor; inversion G; subst; [apply IH; assumption|]. apply Forall_forall. intros y Hy. apply in_map_iff in Hy. destruct Hy as (z&<-&Hz). rewrite Forall_forall in *. specialize (Q z Hz). lia. }
  assert (Fr : Forall (fun i => i < n) rel). { apply Forall_forall. intros y Hy. apply in_map_iff in Hy. destruct Hy as (z&<-&Hz). specialize (Bd z Hz). unfold n. lia. }
  assert (Er : exists rel', rel = 0 :: rel'). { unfold rel. rewrite Ei. cbn. rewrite Nat.sub_diag. eauto. } destruct Er as [rel' Er].
  assert (Pl : concat (map fst (plan (offs (base pre rows s) (part rows s n)) min_io 0 0 0 0 true [] rel)) = rel /\ Forall chunk_ok (plan (offs (base pre rows s) (part rows s n)) min_io 0 0 0 0 true [] rel)).
  { rewrite Er in *. cbn [plan Nat.eqb orb negb andb app]. apply plan_ok; try lia; try discriminate; try reflexivity; inversion Sr; subst; [assumption| |split; [discriminate|reflexivity]]. eapply Forall_impl; [|eassumption]. cbn. lia. }
  destruct Pl as [P1 P2]. rewrite (take_all_spec pre post rows s n ltac:(unfold n; lia) _ P2 ltac:(rewrite P1; apply sorted_lt_le, Sr) ltac:(rewrite P1; exact Fr)). rewrite P1.
  rewrite <- (map_map (fun i => nth (s + i) rows []) (@length B)), offsets_offs, offs_last. set (pk := map (fun i => nth (s + i) rows []) rel). destruct (Nat.ltb_spec (length (concat pk)) (0 + length (concat pk))); [lia|]. f_equal.
  pose proof (values_offs nullable pk [] []) as V. cbn [length app] in V. rewrite app_nil_r in V. rewrite V. unfold pk, rel. rewrite !map_map. apply map_ext_in. intros i Hi. specialize (Bd i Hi). do 2 f_equal. lia.
Qed.
