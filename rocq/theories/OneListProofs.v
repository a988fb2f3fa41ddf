(* Proofs about OneListModel: lists over a codec that reads right read right, and so to any depth. *)
From Coq Require Import List Arith Bool Lia Sorted.
From Verif Require Import OneListModel OneFileProofs.
Import ListNotations.
Local Open Scope nat_scope.

(* a reader reads these rows; rep: indices may repeat *)
Definition reads {V} (rep : Prop) (r : params -> option (list V)) (vs : list V) : Prop :=
  (forall s e, s <= e <= length vs -> r (Range s e) = Some (firstn (e - s) (skipn s vs))) /\
  (forall s e, s < e -> length vs < e -> r (Range s e) = None) /\
  r RangeFull = Some vs /\
  (forall e, e <= length vs -> r (RangeTo e) = Some (firstn e vs)) /\
  (forall s, s <= length vs -> r (RangeFrom s) = Some (skipn s vs)) /\
  (forall l, l <> [] -> StronglySorted le l -> rep \/ NoDup l -> Forall (fun i => i < length vs) l -> exists out, r (Indices l) = Some out /\ map Some out = map (nth_error vs) l) /\
  (forall l i, In i l -> StronglySorted le l -> length vs <= i -> r (Indices l) = None).
(* slices are slices, and whatever arrays are written, their rows are read *)
Definition codec_ok (rep : Prop) (c : codec) (wf : arr c -> Prop) : Prop :=
  (forall a s n, wf a -> s + n <= length (rows c a) -> wf (slc c a s n) /\ rows c (slc c a s n) = firstn n (skipn s (rows c a))) /\
  (forall arrs, arrs <> [] -> Forall wf arrs -> reads rep (rd c (wr c arrs)) (flat_map (rows c) arrs)).
(* an array of lists: offsets that ascend and stay within the items *)
Definition list_wf (c : codec) (wf : arr c -> Prop) (a : arr (lists c)) : Prop :=
  fst a <> [] /\ StronglySorted le (fst a) /\ last (fst a) 0 <= length (rows c (snd a)) /\ wf (snd a).
Fixpoint nested_wf (n : nat) (c : codec) (wf : arr c -> Prop) : arr (nested n c) -> Prop :=
  match n with 0 => wf | S k => list_wf (nested k c) (nested_wf k c wf) end.

Lemma offs_cons : forall A (R : list (list A)) a, offs a R = a :: tl (offs a R).
Proof. intros A [|l R] a; reflexivity. Qed.
Lemma firstn_offs : forall A k (R : list (list A)) a, firstn (k + 1) (offs a R) = offs a (firstn k R).
Proof.
  induction k as [|k IH]; intros R a; [destruct R; reflexivity|].
  destruct R as [|l R]; [cbn; now rewrite firstn_nil|]. cbn [offs Nat.add firstn]. now rewrite IH.
Qed.
Lemma shift_offs : forall A (R : list (list A)) a c k, c <= a -> map (fun b => b - c + k) (offs a R) = offs (a - c + k) R.
Proof.
  induction R as [|l R IH]; intros a c k H; cbn [offs map]; [reflexivity|]. f_equal. rewrite IH by lia. f_equal. lia.
Qed.
Lemma sub_offs : forall A (R : list (list A)) a, map (fun b => b - a) (offs a R) = offs 0 R.
Proof.
  intros A R a. transitivity (map (fun b => b - a + 0) (offs a R)); [apply map_ext; intros; lia|]. rewrite shift_offs by lia. f_equal. lia.
Qed.
Lemma tl_offs_app : forall A (R S : list (list A)) a, tl (offs a (R ++ S)) = tl (offs a R) ++ tl (offs (a + length (concat R)) S).
Proof.
  induction R as [|l R IH]; intros S a; cbn [app offs tl concat length]; [now rewrite Nat.add_0_r|].
  rewrite (offs_cons A (R ++ S)), (offs_cons A R), IH. cbn [app tl]. rewrite app_length, Nat.add_assoc. reflexivity.
Qed.
Lemma windows_cons : forall a b t, windows (a :: b :: t) = (a, b) :: windows (b :: t).
Proof. reflexivity. Qed.
Lemma list_rows_offs : forall A (R : list (list A)) a pre tail, length pre = a -> list_rows (offs a R) (pre ++ concat R ++ tail) = R.
Proof.
  unfold list_rows. induction R as [|l R IH]; intros a pre tail H; [reflexivity|].
  cbn [offs concat]. rewrite (offs_cons A R). rewrite windows_cons. rewrite <- (offs_cons A R). cbn [map fst snd]. f_equal.
  - rewrite skipn_app, H, Nat.sub_diag, skipn_all2 by lia. cbn [skipn app]. rewrite <- app_assoc, firstn_app.
    replace (a + length l - a) with (length l) by lia. rewrite Nat.sub_diag, firstn_all. cbn [firstn]. apply app_nil_r.
  - specialize (IH (a + length l) (pre ++ l) tail). rewrite app_length in IH. rewrite <- !app_assoc in *. apply IH. lia.
Qed.
Lemma list_rows_offs0 : forall A (R : list (list A)), list_rows (offs 0 R) (concat R) = R.
Proof. intros A R. assert (H := list_rows_offs A R 0 [] [] eq_refl). cbn [app] in H. now rewrite app_nil_r in H. Qed.

Lemma last_cons2 : forall (t : list nat) a b d, last (a :: b :: t) d = last (b :: t) d.
Proof. reflexivity. Qed.
(* the offsets of an array are the running sums of the lengths of its rows *)
Lemma offs_of : forall V (items : list V) o, o <> [] -> StronglySorted le o -> last o 0 <= length items ->
  o = offs (hd 0 o) (list_rows o items) /\ hd 0 o <= last o 0 /\ concat (list_rows o items) = firstn (last o 0 - hd 0 o) (skipn (hd 0 o) items).
Proof.
  intros V items o. induction o as [|a o IH]; intros N S L; [contradiction|].
  destruct o as [|b t].
  - cbn. rewrite Nat.sub_diag. repeat split. lia.
  - inversion S as [|? ? S1 S2]; subst. inversion S2 as [|? ? H1 H2]; subst. rewrite last_cons2 in *.
    destruct (IH ltac:(discriminate) S1 L) as (I1 & I2 & I3). cbn [hd] in *.
    assert (Q : length (firstn (b - a) (skipn a items)) = b - a) by (rewrite firstn_length, skipn_length; lia).
    unfold list_rows in *. rewrite windows_cons. cbn [map fst snd concat offs]. rewrite Q.
    replace (a + (b - a)) with b by lia. rewrite <- I1. repeat split; [lia|]. rewrite I3.
    set (z := last (b :: t) 0) in *. replace (z - a) with ((b - a) + (z - b)) by lia.
    assert (P : forall n m (l : list V), firstn (n + m) l = firstn n l ++ firstn m (skipn n l)).
    { clear. induction n as [|n IH]; intros m l; [reflexivity|]. destruct l; [cbn; now rewrite firstn_nil|]. cbn. now rewrite IH. }
    rewrite P. f_equal. f_equal.
    assert (K : forall n m (l : list V), skipn n (skipn m l) = skipn (m + n) l).
    { clear. induction m as [|m IH]; intros l; [reflexivity|]. destruct l; [cbn; now rewrite skipn_nil|]. apply IH. }
    rewrite K. f_equal. lia.
Qed.

Lemma positions_right : forall c (wf : arr c -> Prop) arrs k, Forall (list_wf c wf) arrs ->
  positions_from k arrs = tl (offs k (flat_map (rows (lists c)) arrs)).
Proof.
  intros c wf arrs. induction arrs as [|[o x] arrs IH]; intros k F; [reflexivity|].
  inversion F as [|? ? (N & S & L & W) F2]; subst. cbn [fst snd] in *.
  destruct (offs_of _ (rows c x) o N S L) as (E & Q & _).
  cbn [positions_from flat_map]. rewrite tl_offs_app. cbn [rows lists fst snd].
  set (R := list_rows o (rows c x)) in *.
  assert (P : map (fun b => b - hd 0 o + k) (tl o) = tl (offs k R)).
  { assert (Z := shift_offs _ R (hd 0 o) (hd 0 o) k (le_n _)). rewrite <- E in Z. rewrite Nat.sub_diag in Z. cbn [Nat.add] in Z.
    rewrite <- Z. destruct o; reflexivity. }
  rewrite P. f_equal. rewrite IH by exact F2. do 2 f_equal.
  assert (Z := offs_last _ R k k). rewrite (offs_cons _ R) in Z. rewrite <- Z. destruct (tl (offs k R)); reflexivity.
Qed.

Lemma items_right : forall rep c (wf : arr c -> Prop), codec_ok rep c wf -> forall arrs, Forall (list_wf c wf) arrs ->
  Forall wf (write_items (slc c) arrs) /\ flat_map (rows c) (write_items (slc c) arrs) = concat (flat_map (rows (lists c)) arrs).
Proof.
  intros rep c wf [SL _] arrs. induction arrs as [|[o x] arrs IH]; intros F; [split; [constructor|reflexivity]|].
  inversion F as [|? ? (N & S & L & W) F2]; subst. cbn [fst snd] in *.
  destruct (offs_of _ (rows c x) o N S L) as (_ & Q & E). destruct (IH F2) as [I1 I2].
  destruct (SL x (hd 0 o) (last o 0 - hd 0 o) W ltac:(lia)) as [W2 R2].
  unfold write_items in *. cbn [map flat_map fst snd]. split; [constructor; assumption|].
  rewrite I2, concat_app, R2. cbn [rows lists fst snd]. now rewrite E.
Qed.

Lemma concat_slice : forall A (R : list (list A)) s e, s <= e <= length R ->
  concat (firstn (e - s) (skipn s R)) = firstn (length (concat (firstn e R)) - length (concat (firstn s R))) (skipn (length (concat (firstn s R))) (concat R)).
Proof.
  intros A R s e H.
  assert (E1 : R = firstn s R ++ firstn (e - s) (skipn s R) ++ skipn (e - s) (skipn s R)) by (now rewrite !firstn_skipn).
  assert (E2 : firstn e R = firstn s R ++ firstn (e - s) (skipn s R)).
  { clear E1. revert R e H. induction s as [|s IH]; intros R e H; [cbn; now rewrite Nat.sub_0_r|].
    destruct R as [|x R]; [cbn in H; lia|]. destruct e as [|e]; [lia|]. cbn in H. cbn. now rewrite <- IH by lia. }
  assert (E3 : concat R = concat (firstn s R) ++ concat (firstn (e - s) (skipn s R)) ++ concat (skipn (e - s) (skipn s R))) by (now rewrite <- !concat_app, <- E1).
  rewrite E2, E3. rewrite !concat_app, app_length.
  rewrite skipn_app, Nat.sub_diag, skipn_all. cbn [skipn app].
  replace (length (concat (firstn s R)) + length (concat (firstn (e - s) (skipn s R))) - length (concat (firstn s R))) with (length (concat (firstn (e - s) (skipn s R)))) by lia.
  rewrite firstn_app, Nat.sub_diag, firstn_all. cbn [firstn]. now rewrite app_nil_r.
Qed.

Lemma get_positions_offs : forall A (R : list (list A)) s e, s <= e <= length R ->
  get_positions (offs 0 R) s (e + 1) = Some (offs (length (concat (firstn s R))) (firstn (e - s) (skipn s R))).
Proof.
  intros A R s e H. unfold get_positions. rewrite offs_length.
  destruct (Nat.leb_spec (e + 1) s); [lia|]. destruct (Nat.ltb_spec (S (length R)) (e + 1)); [lia|].
  rewrite offs_skipn by lia. cbn [Nat.add]. replace (e + 1 - s) with (e - s + 1) by lia. now rewrite firstn_offs.
Qed.

Lemma concat_le : forall A (R : list (list A)) s e, s <= e -> length (concat (firstn s R)) <= length (concat (firstn e R)).
Proof.
  intros A R s e H. replace e with (s + (e - s)) by lia. generalize (e - s) as k. clear. revert R.
  induction s as [|s IH]; intros R k; [cbn; lia|]. destruct R as [|x R]; [cbn; lia|]. cbn [firstn concat Nat.add]. rewrite !app_length. specialize (IH R k). lia.
Qed.
Lemma concat_le_all : forall A (R : list (list A)) s, length (concat (firstn s R)) <= length (concat R).
Proof. intros A R s. rewrite <- (firstn_skipn s R) at 2. rewrite concat_app, app_length. lia. Qed.

Lemma all_some_map : forall A B (f : A -> option B) (g : A -> B) l, (forall x, In x l -> f x = Some (g x)) -> all_some (map f l) = Some (map g l).
Proof.
  induction l as [|x l IH]; intros H; [reflexivity|]. cbn [map all_some]. rewrite (H x (or_introl eq_refl)), IH; [reflexivity|]. intros; apply H; now right.
Qed.

Lemma builder_offs : forall A (rs : list (nat * nat)) (vs : list (list A)) k acc, Forall2 (fun r v => snd r - fst r = length v) rs vs ->
  snd (fold_left (fun st r => (fst st + (snd r - fst r), snd st ++ [fst st + (snd r - fst r)])) rs (k, acc)) = acc ++ tl (offs k vs).
Proof.
  intros A rs vs k acc H. revert k acc. induction H as [|r v rs vs E H IH]; intros k acc; cbn [fold_left fst snd]; [cbn; now rewrite app_nil_r|].
  rewrite IH. rewrite E. cbn [offs tl]. rewrite (offs_cons _ vs). rewrite <- app_assoc. reflexivity.
Qed.

Section Read.
  Context {V : Type}.
  Variables (rep : Prop) (child : params -> option (list V)) (R : list (list V)).
  Hypothesis C : reads rep child (concat R).

  Lemma new_list_offs : forall S : list (list V), new_list (offs 0 S) (concat S) = Some S.
  Proof. intros S. unfold new_list. rewrite offs_last, list_rows_offs0. cbn [Nat.add]. now rewrite Nat.leb_refl. Qed.

  Lemma nth_row : forall i v, nth_error R i = Some v ->
    firstn (length v) (skipn (length (concat (firstn i R))) (concat R)) = v.
  Proof.
    intros i v H. assert (Hi : i < length R) by (apply nth_error_Some; congruence).
    assert (E := concat_slice V R i (S i) ltac:(lia)). rewrite (concat_firstn_S V i R v H) in E.
    replace (length (concat (firstn i R)) + length v - length (concat (firstn i R))) with (length v) in E by lia. rewrite <- E.
    replace (S i - i) with 1 by lia. clear E C. revert R H Hi. induction i as [|i IH]; intros [|x Q] H Hi; try discriminate.
    - cbn in H. injection H as ->. cbn. apply app_nil_r.
    - cbn [skipn]. apply IH; [exact H|cbn in Hi; lia].
  Qed.

  Lemma take_right : forall l, l <> [] -> StronglySorted le l -> Forall (fun i => i < length R) l ->
    exists out, read_list (offs 0 R) child (Indices l) = Some out /\ map Some out = map (nth_error R) l.
  Proof.
    intros l N S F. destruct l as [|first l]; [contradiction|]. clear N. unfold read_list.
    assert (Hl : forall i, In i (first :: l) -> first <= i <= last (first :: l) 0).
    { clear -S. revert first S. induction l as [|b l IH]; intros a S i Hi.
      - destruct Hi as [<-|[]]. cbn. lia.
      - inversion S as [|? ? S1 S2]; subst. inversion S2; subst. destruct Hi as [<-|Hi].
        + rewrite last_cons2. specialize (IH b S1 b (or_introl eq_refl)). lia.
        + rewrite last_cons2. specialize (IH b S1 i Hi). lia. }
    assert (Hlast : last (first :: l) 0 < length R).
    { rewrite Forall_forall in F. apply F. clear. revert first. induction l as [|b l IH]; intros a; [now left|]. right. rewrite last_cons2. apply IH. }
    set (z := last (first :: l) 0) in *. assert (Hf := Hl first (or_introl eq_refl)).
    replace (z + 2) with (Datatypes.S z + 1) by lia. rewrite get_positions_offs by lia.
    set (a := length (concat (firstn first R))).
    set (R' := firstn (Datatypes.S z - first) (skipn first R)).
    rewrite (offs_cons _ R'). rewrite <- (offs_cons _ R').
    set (row := fun i => nth i R []).
    assert (Hn : forall i, In i (first :: l) -> nth_error R i = Some (row i)).
    { intros i Hi. apply nth_error_nth'. specialize (Hl i Hi). lia. }
    assert (Hp : forall k, k <= Datatypes.S z - first -> nth_error (offs a R') k = Some (length (concat (firstn (first + k) R)))).
    { intros k Hk. assert (P : firstn (Datatypes.S z - first + 1) (skipn first (offs 0 R)) = offs a R').
      { rewrite offs_skipn by lia. apply firstn_offs. }
      rewrite <- P.
      assert (K : forall n m (q : list nat), k < n -> nth_error (firstn n (skipn m q)) k = nth_error q (m + k)).
      { clear. intros n m q H. revert q. induction m as [|m IH]; intros q.
        - cbn [skipn Nat.add]. revert n k H. induction q as [|x q IH]; intros n k H; [rewrite firstn_nil; now destruct k|].
          destruct n as [|n]; [lia|]. destruct k as [|k]; [reflexivity|]. cbn. apply IH. lia.
        - destruct q as [|x q]; [cbn [skipn]; rewrite firstn_nil; now destruct k|]. cbn [skipn Nat.add nth_error]. apply IH. }
      rewrite K by lia. rewrite offs_nth by lia. reflexivity. }
    unfold take_list. set (rng := fun i => (length (concat (firstn i R)), length (concat (firstn (Datatypes.S i) R)))).
    rewrite (all_some_map _ _ _ rng).
    2:{ intros i Hi. specialize (Hl i Hi). destruct (Nat.ltb_spec i first); [lia|].
        rewrite !Hp by lia. unfold rng. do 3 f_equal; do 3 f_equal; lia. }
    rewrite map_map. rewrite (all_some_map _ _ _ row).
    2:{ intros i Hi. unfold rng. cbn [fst snd]. destruct C as (C1 & _). specialize (Hl i Hi).
        rewrite C1 by (split; [apply concat_le; lia|apply concat_le_all]). f_equal.
        rewrite (concat_firstn_S V i R (row i) (Hn i Hi)).
        replace (length (concat (firstn i R)) + length (row i) - length (concat (firstn i R))) with (length (row i)) by lia.
        apply nth_row. apply Hn. exact Hi. }
    rewrite (builder_offs V _ (map row (first :: l))).
    2:{ clear -Hn. revert Hn. generalize (first :: l) as q. induction q as [|i q IH]; intros Hn; cbn [map]; [constructor|]. constructor.
        - unfold rng. cbn [fst snd]. rewrite (concat_firstn_S V i R (row i) (Hn i (or_introl eq_refl))). lia.
        - apply IH. intros; apply Hn; now right. }
    change ([0] ++ tl (offs 0 (map row (first :: l)))) with (0 :: tl (offs 0 (map row (first :: l)))). rewrite <- (offs_cons _ (map row (first :: l))).
    exists (map row (first :: l)). split; [apply new_list_offs|]. rewrite map_map. apply map_ext_in. intros i Hi. symmetry. now apply Hn.
  Qed.

  Lemma range_right : forall s e, s <= e <= length R -> read_list (offs 0 R) child (Range s e) = Some (firstn (e - s) (skipn s R)).
  Proof.
    intros s e H. unfold read_list. rewrite get_positions_offs by lia.
    set (a := length (concat (firstn s R))). set (R' := firstn (e - s) (skipn s R)).
    assert (LR : length R' = e - s) by (unfold R'; rewrite firstn_length, skipn_length; lia).
    assert (SL := concat_slice V R s e H). fold R' a in SL.
    assert (LE := concat_le V R s e ltac:(lia)). fold a in LE. assert (LA := concat_le_all V R e).
    rewrite (offs_cons _ R'). rewrite <- (offs_cons _ R').
    rewrite offs_nth by lia. cbn [option_map]. rewrite <- LR at 1. rewrite firstn_all.
    assert (QQ : a + length (concat R') = length (concat (firstn e R))).
    { rewrite SL, firstn_length, skipn_length. lia. }
    rewrite QQ. destruct C as (C1 & _). rewrite C1 by lia. rewrite <- SL, sub_offs. apply new_list_offs.
  Qed.

  Lemma list_reads : reads True (read_list (offs 0 R) child) R.
  Proof.
    unfold reads. split; [apply range_right|]. split.
    { intros s e H L. unfold read_list, get_positions. rewrite offs_length.
      destruct (Nat.leb_spec (e + 1) s); [lia|]. destruct (Nat.ltb_spec (S (length R)) (e + 1)); [reflexivity|lia]. }
    destruct C as (C1 & C2 & C3 & C4 & C5 & _).
    split; [|split; [|split; [|split]]].
    - unfold read_list. rewrite offs_length. replace (S (length R)) with (length R + 1) by lia. rewrite get_positions_offs by lia.
      cbn [firstn concat length skipn]. rewrite Nat.sub_0_r, firstn_all. rewrite (offs_cons _ R). rewrite <- (offs_cons _ R).
      rewrite offs_last. cbn [Nat.add]. rewrite C1 by lia. cbn [skipn]. rewrite Nat.sub_0_r, firstn_all, sub_offs. apply new_list_offs.
    - intros e H. unfold read_list. rewrite get_positions_offs by lia.
      cbn [firstn concat length skipn]. rewrite Nat.sub_0_r. set (R' := firstn e R).
      assert (LR : length R' = e) by (unfold R'; rewrite firstn_length; lia).
      rewrite (offs_cons _ R'). rewrite <- (offs_cons _ R'). rewrite offs_nth by lia. rewrite <- LR at 1. rewrite firstn_all.
      cbn [Nat.add option_map]. unfold R'. rewrite C4 by apply concat_le_all.
      assert (SL := concat_slice V R 0 e ltac:(lia)). cbn [firstn concat length skipn] in SL. rewrite !Nat.sub_0_r in SL.
      rewrite <- SL, sub_offs. apply new_list_offs.
    - intros s H. unfold read_list. rewrite offs_length. replace (S (length R)) with (length R + 1) by lia. rewrite get_positions_offs by lia.
      assert (LS : firstn (length R - s) (skipn s R) = skipn s R) by (apply firstn_all2; rewrite skipn_length; lia).
      assert (SL := concat_slice V R s (length R) ltac:(lia)). rewrite LS in *. rewrite firstn_all in SL.
      rewrite (offs_cons _ (skipn s R)). rewrite <- (offs_cons _ (skipn s R)).
      rewrite C5 by apply concat_le_all. rewrite firstn_all2 in SL by (rewrite skipn_length; lia). rewrite <- SL, sub_offs. apply new_list_offs.
    - intros l N S _ F. apply take_right; assumption.
    - intros l i Hi S L. unfold read_list. destruct l as [|first l]; [destruct Hi|].
      assert (Hl : first <= i <= last (first :: l) 0).
      { clear -S Hi. revert first S i Hi. induction l as [|b l IH]; intros a S i Hi.
        - destruct Hi as [<-|[]]. cbn. lia.
        - inversion S as [|? ? S1 S2]; subst. inversion S2; subst. destruct Hi as [<-|Hi].
          + rewrite last_cons2. specialize (IH b S1 b (or_introl eq_refl)). lia.
          + rewrite last_cons2. specialize (IH b S1 i Hi). lia. }
      unfold get_positions. rewrite offs_length.
      destruct (Nat.leb_spec (last (first :: l) 0 + 2) first); [lia|]. destruct (Nat.ltb_spec (Datatypes.S (length R)) (last (first :: l) 0 + 2)); [reflexivity|lia].
  Qed.
End Read.

Lemma reads_rep : forall V (rep : Prop) (r : params -> option (list V)) vs, reads True r vs -> reads rep r vs.
Proof.
  intros V rep r vs (H1 & H2 & H3 & H4 & H5 & H6 & H7). repeat split; try assumption.
  intros l N S _ F. apply H6; auto.
Qed.

(* lists repeat their indices whatever their items do *)
Theorem lists_ok : forall rep c wf, codec_ok rep c wf -> codec_ok True (lists c) (list_wf c wf).
Proof.
  intros rep c wf OK. split.
  - intros [o x] s n (N & S & L & W) H. cbn [fst snd rows lists slc] in *.
    destruct (offs_of _ (rows c x) o N S L) as (E & Q & K).
    set (R := list_rows o (rows c x)) in *. set (h := hd 0 o) in *.
    assert (H' : s + n <= @length (list (val c)) R) by exact H. clear H. rename H' into H.
    assert (E2 : firstn (n + 1) (skipn s o) = offs (h + length (concat (firstn s R))) (firstn n (skipn s R))).
    { rewrite E. rewrite offs_skipn by lia. apply firstn_offs. }
    assert (LL : h + length (concat R) = last o 0).
    { rewrite K, firstn_length, skipn_length. lia. }
    assert (SL := concat_slice _ R s (s + n) ltac:(lia)). replace (s + n - s) with n in SL by lia.
    assert (CL := concat_le _ R s (s + n) ltac:(lia)). assert (CA := concat_le_all _ R (s + n)).
    assert (LN : length (concat (firstn n (skipn s R))) = length (concat (firstn (s + n) R)) - length (concat (firstn s R))).
    { rewrite SL, firstn_length, skipn_length. lia. }
    split.
    + unfold list_wf. cbn [fst snd]. rewrite E2. repeat split.
      * rewrite offs_cons. discriminate.
      * apply offs_sorted.
      * rewrite offs_last. lia.
      * exact W.
    + rewrite E2.
      (* the items, cut where the slice begins and ends *)
      assert (CS : exists tail, rows c x = firstn (h + length (concat (firstn s R))) (rows c x) ++ concat (firstn n (skipn s R)) ++ tail).
      { exists (skipn (length (concat (firstn n (skipn s R)))) (skipn (h + length (concat (firstn s R))) (rows c x))).
        assert (Z : concat (firstn n (skipn s R)) = firstn (length (concat (firstn n (skipn s R)))) (skipn (h + length (concat (firstn s R))) (rows c x))).
        { rewrite SL at 1. rewrite LN, K.
          set (u := length (concat (firstn s R))) in *. set (v := length (concat (firstn (s + n) R))) in *.
          assert (P1 : forall n m (l : list (val c)), skipn n (skipn m l) = skipn (m + n) l).
          { clear. intros n m. revert n. induction m as [|m IH]; intros n l; [reflexivity|]. destruct l; [cbn; now rewrite skipn_nil|]. apply IH. }
          rewrite skipn_firstn_comm, firstn_firstn, P1. f_equal. lia. }
        rewrite Z at 1. now rewrite !firstn_skipn. }
      destruct CS as (tail & CS). rewrite CS. apply list_rows_offs. rewrite firstn_length. lia.
  - intros arrs N F. destruct (items_right rep c wf OK arrs F) as [I1 I2]. destruct OK as [_ RD].
    cbn [rd wr lists fst snd]. unfold write_positions. rewrite (positions_right c wf arrs 0 F), <- offs_cons.
    specialize (RD (write_items (slc c) arrs) ltac:(destruct arrs; [contradiction|discriminate]) I1). rewrite I2 in RD.
    exact (list_reads rep _ _ RD).
Qed.

Theorem nested_ok : forall n rep c wf, codec_ok rep c wf -> codec_ok (rep \/ n <> 0) (nested n c) (nested_wf n c wf).
Proof.
  induction n as [|n IH]; intros rep c wf H.
  - destruct H as [H1 H2]. split; [exact H1|]. intros arrs N F. specialize (H2 arrs N F).
    destruct H2 as (K1 & K2 & K3 & K4 & K5 & K6 & K7). repeat split; try assumption.
    intros l Nl S Q G. apply K6; auto. destruct Q as [[Q|Q]|Q]; auto. now destruct Q.
  - destruct (lists_ok _ _ _ (IH rep c wf H)) as [H1 H2]. split; [exact H1|]. intros arrs N F. apply reads_rep. exact (H2 arrs N F).
Qed.
