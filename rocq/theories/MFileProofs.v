(* Manifests and sections of indices read back, whatever the prefetch and the size of blocks; and what a file is that can be read. *)
From Coq Require Import List ZArith Bool Lia.
From Verif Require Import MFileModel.
Import ListNotations.
Local Open Scope nat_scope.

Lemma le_length : forall k n, length (le k n) = k.
Proof. induction k as [|k IH]; intros n; [reflexivity|]. cbn [le length]. now rewrite IH. Qed.
Lemma of_le_le : forall k n, of_le (le k n) = (n mod 256 ^ Z.of_nat k)%Z.
Proof.
  induction k as [|k IH]; intros n; [cbn; now rewrite Z.mod_1_r|]. cbn [le of_le]. rewrite IH.
  replace (Z.of_nat (S k)) with (1 + Z.of_nat k)%Z by lia. rewrite Z.pow_add_r by lia. rewrite Z.pow_1_r.
  rewrite Z.rem_mul_r by (try apply Z.pow_pos_nonneg; lia). reflexivity.
Qed.
Lemma skipn_skip : forall A a b (l : list A), skipn a (skipn b l) = skipn (a + b) l.
Proof.
  intros A a b. revert a. induction b as [|b IH]; intros a l; [now rewrite Nat.add_0_r|]. rewrite Nat.add_succ_r.
  destruct l as [|x l]; [now rewrite !skipn_nil|]. cbn [skipn]. apply IH.
Qed.
Lemma skipn_len : forall A n (a b : list A), n = length a -> skipn n (a ++ b) = b.
Proof. intros A n a b ->. rewrite skipn_app, Nat.sub_diag, skipn_all. reflexivity. Qed.
Lemma firstn_len : forall A n (a b : list A), n = length a -> firstn n (a ++ b) = a.
Proof. intros A n a b ->. rewrite firstn_app, Nat.sub_diag, firstn_all. cbn. apply app_nil_r. Qed.

(* without a prefetch *)
Definition whole (f : list Z) : option (list Z) :=
  let size := length f in
  if size <? 16 then None
  else if list_eq_dec Z.eq_dec (skipn (size - 4) f) magic then
    let pos := of_le (firstn 8 (skipn (size - 16) f)) in
    if (2 ^ 63 <=? pos)%Z || (Z.of_nat size <? pos)%Z then None
    else let b := skipn (Z.to_nat pos) f in
         if length b <? 20 then None
         else let m := firstn (length b - 20) (skipn 4 b) in
              if (Z.of_nat (length m) =? of_le (firstn 4 b))%Z then Some m else None
  else None.

Lemma read_whole : forall pf f, 16 <= pf -> read_manifest pf f = whole f.
Proof.
  intros pf f H. unfold read_manifest. set (size := length f).
  assert (G : get_range f (size - pf) size = Some (skipn (size - pf) f)).
  { unfold get_range. fold size. destruct (Nat.leb_spec (size - pf) size); [|lia]. rewrite Nat.leb_refl. cbn [andb]. f_equal.
    apply firstn_all2. rewrite skipn_length. fold size. lia. }
  rewrite G. cbv zeta. rewrite skipn_length. fold size. unfold whole. fold size. cbv zeta.
  assert (N : size - (size - pf) = Nat.min pf size) by lia. rewrite N.
  destruct (Nat.ltb_spec (Nat.min pf size) 16); destruct (Nat.ltb_spec size 16); try lia; [reflexivity|].
  rewrite !skipn_skip. replace (Nat.min pf size - 4 + (size - pf)) with (size - 4) by lia.
  replace (Nat.min pf size - 16 + (size - pf)) with (size - 16) by lia.
  destruct (list_eq_dec Z.eq_dec (skipn (size - 4) f) magic) as [_|_]; [|reflexivity]. cbn [negb].
  set (pos := of_le (firstn 8 (skipn (size - 16) f))). clearbody pos.
  destruct ((2 ^ 63 <=? pos)%Z || (Z.of_nat size <? pos)%Z) eqn:E; [reflexivity|]. apply orb_false_elim in E. destruct E as [_ E].
  apply Z.ltb_ge in E. set (p := Z.to_nat pos). assert (P : p <= size) by lia. clearbody p.
  destruct (Nat.leb_spec (size - p) (Nat.min pf size)).
  - rewrite skipn_skip. replace (Nat.min pf size - (size - p) + (size - pf)) with p by lia. reflexivity.
  - assert (G2 : get_range f p (size - pf) = Some (firstn (size - pf - p) (skipn p f))).
    { unfold get_range. fold size. destruct (Nat.leb_spec p (size - pf)); [|lia]. destruct (Nat.leb_spec (size - pf) size); [reflexivity|lia]. }
    rewrite G2. cbn [option_map].
    assert (S2 : skipn (size - pf) f = skipn (size - pf - p) (skipn p f)) by (rewrite skipn_skip; f_equal; lia).
    rewrite S2. rewrite firstn_skipn. now rewrite !skipn_skip.
Qed.

(* a file with a manifest at its end *)
Lemma whole_file : forall w m v, length v = 4 -> (Z.of_nat (length w) < 2 ^ 63)%Z ->
  whole (w ++ le 4 (Z.of_nat (length m)) ++ m ++ le 8 (Z.of_nat (length w)) ++ v ++ magic) =
  if (Z.of_nat (length m) <? 2 ^ 32)%Z then Some m else None.
Proof.
  intros w m v V W. set (f := w ++ _).
  assert (F : length f = length w + 4 + length m + 16) by (unfold f; rewrite !app_length, !le_length, V; cbn [length magic]; lia).
  unfold whole. cbv zeta. destruct (Nat.ltb_spec (length f) 16); [lia|].
  assert (F1 : skipn (length f - 4) f = magic).
  { unfold f at 2. rewrite !app_assoc. apply skipn_len. rewrite F, !app_length, !le_length, V. lia. }
  assert (F2 : firstn 8 (skipn (length f - 16) f) = le 8 (Z.of_nat (length w))).
  { unfold f at 2. rewrite (app_assoc w), (app_assoc (w ++ _)). rewrite skipn_len; [|rewrite F, !app_length, !le_length; lia].
    apply firstn_len. now rewrite le_length. }
  rewrite F1, F2. destruct (list_eq_dec Z.eq_dec magic magic) as [_|N]; [|now contradict N].
  rewrite of_le_le. change (256 ^ Z.of_nat 8)%Z with (2 ^ 64)%Z. rewrite Z.mod_small by lia.
  destruct (Z.leb_spec (2 ^ 63) (Z.of_nat (length w))); [lia|]. destruct (Z.ltb_spec (Z.of_nat (length f)) (Z.of_nat (length w))); [lia|]. cbn [orb].
  rewrite Nat2Z.id.
  assert (F3 : skipn (length w) f = le 4 (Z.of_nat (length m)) ++ m ++ le 8 (Z.of_nat (length w)) ++ v ++ magic) by (unfold f; now apply skipn_len).
  assert (F4 : length (skipn (length w) f) = length m + 20) by (rewrite skipn_length; lia).
  rewrite F4. destruct (Nat.ltb_spec (length m + 20) 20); [lia|]. rewrite F3.
  rewrite (skipn_len _ 4) by (now rewrite le_length). rewrite (firstn_len _ 4) by (now rewrite le_length).
  rewrite (firstn_len _ (length m + 20 - 20)) by lia. rewrite of_le_le. change (256 ^ Z.of_nat 4)%Z with (2 ^ 32)%Z.
  destruct (Z.ltb_spec (Z.of_nat (length m)) (2 ^ 32)).
  - rewrite Z.mod_small by lia. now rewrite Z.eqb_refl.
  - assert (K := Z.mod_pos_bound (Z.of_nat (length m)) (2 ^ 32) ltac:(lia)).
    destruct (Z.eqb_spec (Z.of_nat (length m)) (Z.of_nat (length m) mod 2 ^ 32)); [lia|reflexivity].
Qed.

Lemma message : forall block w m r, 4 <= block -> (Z.of_nat (length m) < 2 ^ 32)%Z ->
  read_message block (w ++ le 4 (Z.of_nat (length m)) ++ m ++ r) (length w) = Some m.
Proof.
  intros block w m r B M. set (t := le 4 (Z.of_nat (length m)) ++ m ++ r).
  assert (T : length t = 4 + length m + length r) by (unfold t; rewrite !app_length, le_length; lia).
  assert (T4 : firstn 4 t = le 4 (Z.of_nat (length m))) by (unfold t; apply firstn_len; now rewrite le_length).
  assert (TM : firstn (length m) (skipn 4 t) = m) by (unfold t; rewrite (skipn_len _ 4) by (now rewrite le_length); now apply firstn_len).
  assert (CUT : forall k, length m + 4 <= k -> firstn (length m) (skipn 4 (firstn k t)) = m).
  { intros k K. rewrite skipn_firstn_comm, firstn_firstn. replace (Nat.min (length m) (k - 4)) with (length m) by lia. exact TM. }
  clearbody t. unfold read_message. cbv zeta. rewrite app_length. destruct (Nat.ltb_spec (length w + length t) (length w)); [lia|].
  set (k := Nat.min block (length t)). replace (Nat.min (length w + block) (length w + length t)) with (length w + k) by lia.
  assert (G : get_range (w ++ t) (length w) (length w + k) = Some (firstn k t)).
  { unfold get_range. rewrite app_length. destruct (Nat.leb_spec (length w) (length w + k)); [|lia].
    destruct (Nat.leb_spec (length w + k) (length w + length t)); [|lia]. cbn [andb]. rewrite skipn_len by reflexivity. do 2 f_equal. lia. }
  rewrite G. assert (KL : length (firstn k t) = k) by (rewrite firstn_length; lia). rewrite KL.
  destruct (Nat.ltb_spec k 4); [lia|]. rewrite firstn_firstn. replace (Nat.min 4 k) with 4 by lia. rewrite T4, of_le_le.
  change (256 ^ Z.of_nat 4)%Z with (2 ^ 32)%Z. rewrite Z.mod_small by lia. rewrite Nat2Z.id.
  destruct (Nat.ltb_spec k (length m + 4)); [|f_equal; apply CUT; lia].
  replace (Nat.min (4 + length w + length m) (length w + length t)) with (length w + (4 + length m)) by lia.
  assert (G2 : get_range (w ++ t) (length w + k) (length w + (4 + length m)) = Some (firstn (4 + length m - k) (skipn k t))).
  { unfold get_range. rewrite app_length. destruct (Nat.leb_spec (length w + k) (length w + (4 + length m))); [|lia].
    destruct (Nat.leb_spec (length w + (4 + length m)) (length w + length t)); [|lia]. cbn [andb].
    replace (length w + k) with (k + length w) by lia. rewrite <- skipn_skip, skipn_len by reflexivity. do 2 f_equal. lia. }
  rewrite G2.
  assert (J : firstn k t ++ firstn (4 + length m - k) (skipn k t) = firstn (4 + length m) t).
  { rewrite <- (firstn_skipn k t) at 3. rewrite firstn_app. rewrite KL. f_equal. rewrite firstn_firstn. f_equal. lia. }
  rewrite J, firstn_length. destruct (Nat.ltb_spec (Nat.min (4 + length m) (length t)) (length m + 4)); [lia|]. f_equal. apply CUT. lia.
Qed.

(* what is written is read, whatever is before it *)
Theorem roundtrip : forall prefetch block w indices manifest, 16 <= prefetch -> 4 <= block ->
  (Z.of_nat (length (write_file w indices manifest)) < 2 ^ 63)%Z ->
  (forall i, indices = Some i -> Z.of_nat (length i) < 2 ^ 32)%Z -> (forall s, Z.of_nat (length (manifest s)) < 2 ^ 32)%Z ->
  exists section, read_manifest prefetch (write_file w indices manifest) = Some (manifest section) /\
    read_indices block (write_file w indices manifest) section = Some indices.
Proof.
  intros pf block w ix man P B L I M.
  assert (K : forall w s, (Z.of_nat (length w) < 2 ^ 63)%Z ->
    read_manifest pf (write_magics (w ++ le 4 (Z.of_nat (length (man s))) ++ man s) (length w)) = Some (man s)).
  { intros w0 s W0. rewrite read_whole by exact P. unfold write_magics. rewrite <- !app_assoc. 
    rewrite (app_assoc (le 2 0)). rewrite whole_file; [|reflexivity|exact W0]. specialize (M s). destruct (Z.ltb_spec (Z.of_nat (length (man s))) (2 ^ 32)); [reflexivity|lia]. }
  destruct ix as [i|]; unfold write_file, write_message in *; cbv beta iota zeta in *.
  - exists (Some (length w)). split; [apply K; unfold write_magics in L; rewrite !app_length in *; lia|].
    cbn [read_indices]. unfold write_magics. rewrite <- !app_assoc. rewrite message; [reflexivity|exact B|now apply I].
  - exists None. split; [apply K; unfold write_magics in L; rewrite !app_length in *; lia|reflexivity].
Qed.

(* a manifest that is too long for its length is an error *)
Theorem too_long : forall prefetch w indices manifest, 16 <= prefetch ->
  (Z.of_nat (length (write_file w indices manifest)) < 2 ^ 63)%Z -> (forall s, 2 ^ 32 <= Z.of_nat (length (manifest s)))%Z ->
  read_manifest prefetch (write_file w indices manifest) = None.
Proof.
  intros pf w ix man P L M.
  assert (K : forall w s, (Z.of_nat (length w) < 2 ^ 63)%Z ->
    read_manifest pf (write_magics (w ++ le 4 (Z.of_nat (length (man s))) ++ man s) (length w)) = None).
  { intros w0 s W0. rewrite read_whole by exact P. unfold write_magics. rewrite <- !app_assoc. 
    rewrite (app_assoc (le 2 0)). rewrite whole_file; [|reflexivity|exact W0]. specialize (M s). destruct (Z.ltb_spec (Z.of_nat (length (man s))) (2 ^ 32)); [lia|reflexivity]. }
  destruct ix as [i|]; unfold write_file, write_message in *; cbv beta iota zeta in *; apply K; unfold write_magics in L; rewrite !app_length in *; lia.
Qed.

Lemma four : forall A (l : list A), length l = 4 -> exists a b c d, l = [a; b; c; d].
Proof. intros A [|a [|b [|c [|d [|e l]]]]] H; try discriminate. now exists a, b, c, d. Qed.
Lemma split_at : forall A n (l : list A), n <= length l -> l = firstn n l ++ skipn n l /\ length (firstn n l) = n.
Proof. intros A n l H. split; [symmetry; apply firstn_skipn|]. rewrite firstn_length. lia. Qed.
Lemma of_le_pos : forall l, Forall (fun b => 0 <= b < 256)%Z l -> (0 <= of_le l)%Z.
Proof. induction 1 as [|b l H _ IH]; cbn [of_le]; lia. Qed.

(* a file that can be read has the footer, and the message where the footer says, with its length before it, up to the footer *)
Theorem sound : forall prefetch f m, 16 <= prefetch -> Forall (fun b => 0 <= b < 256)%Z f -> read_manifest prefetch f = Some m ->
  exists w b0 b1 b2 b3 p0 p1 p2 p3 p4 p5 p6 p7 v,
    f = w ++ [b0; b1; b2; b3] ++ m ++ [p0; p1; p2; p3; p4; p5; p6; p7] ++ v ++ [76; 65; 78; 67]%Z /\ length v = 4 /\
    (Z.of_nat (length m) = b0 + 2 ^ 8 * b1 + 2 ^ 16 * b2 + 2 ^ 24 * b3)%Z /\
    (Z.of_nat (length w) = p0 + 2 ^ 8 * p1 + 2 ^ 16 * p2 + 2 ^ 24 * p3 + 2 ^ 32 * p4 + 2 ^ 40 * p5 + 2 ^ 48 * p6 + 2 ^ 56 * p7)%Z.
Proof.
  intros pf f m P F R. rewrite read_whole in R by exact P. unfold whole in R. cbv zeta in R.
  destruct (Nat.ltb_spec (length f) 16) as [|N]; [discriminate|].
  destruct (list_eq_dec Z.eq_dec (skipn (length f - 4) f) magic) as [MG|_]; [|discriminate].
  set (pb := firstn 8 (skipn (length f - 16) f)) in *.
  assert (PB : Forall (fun b => 0 <= b < 256)%Z pb).
  { apply Forall_forall. intros x X. rewrite Forall_forall in F. apply F. unfold pb in X.
    rewrite <- (firstn_skipn (length f - 16) f). apply in_or_app. right. rewrite <- (firstn_skipn 8 (skipn _ f)). apply in_or_app. now left. }
  assert (P0 := of_le_pos pb PB).
  destruct ((2 ^ 63 <=? of_le pb)%Z || (Z.of_nat (length f) <? of_le pb)%Z) eqn:E; [discriminate|].
  apply orb_false_elim in E. destruct E as [_ E]. apply Z.ltb_ge in E.
  set (p := Z.to_nat (of_le pb)) in *. assert (PP : p <= length f) by lia. assert (PZ : Z.of_nat p = of_le pb) by lia. clearbody p.
  rewrite skipn_length in R. destruct (Nat.ltb_spec (length f - p) 20) as [|L]; [discriminate|].
  set (m0 := firstn (length f - p - 20) (skipn 4 (skipn p f))) in *.
  destruct (Z.eqb_spec (Z.of_nat (length m0)) (of_le (firstn 4 (skipn p f)))) as [ML|]; [|discriminate]. injection R as <-.
  set (t := skipn (length f - 16) f) in *.
  assert (TL : length t = 16) by (unfold t; rewrite skipn_length; lia).
  assert (T1 : t = pb ++ firstn 4 (skipn 8 t) ++ magic).
  { rewrite <- MG. replace (skipn (length f - 4) f) with (skipn 4 (skipn 8 t)); [now rewrite firstn_skipn; unfold pb; rewrite firstn_skipn|].
    unfold t. rewrite !skipn_skip. f_equal. lia. }
  assert (T2 : skipn p f = firstn 4 (skipn p f) ++ m0 ++ t).
  { rewrite <- (firstn_skipn 4 (skipn p f)) at 1. f_equal. unfold m0.
    rewrite <- (firstn_skipn (length f - p - 20) (skipn 4 (skipn p f))) at 1. f_equal. rewrite !skipn_skip. unfold t. f_equal. lia. }
  assert (H4 : length (firstn 4 (skipn p f)) = 4) by (rewrite firstn_length, skipn_length; lia).
  assert (V4 : length (firstn 4 (skipn 8 t)) = 4) by (rewrite firstn_length, skipn_length; lia).
  assert (P8 : length pb = 8) by (unfold pb; rewrite firstn_length; lia).
  assert (FF : f = firstn p f ++ firstn 4 (skipn p f) ++ m0 ++ pb ++ firstn 4 (skipn 8 t) ++ magic).
  { rewrite <- (firstn_skipn p f) at 1. f_equal. rewrite T2 at 1. do 2 f_equal. exact T1. }
  assert (FW : length (firstn p f) = p) by (rewrite firstn_length; lia).
  destruct (four _ _ H4) as (b0 & b1 & b2 & b3 & EH). rewrite EH in *.
  clearbody pb. destruct pb as [|p0 [|p1 [|p2 [|p3 [|p4 [|p5 [|p6 [|p7 [|p8 pb]]]]]]]]]; try discriminate.
  exists (firstn p f), b0, b1, b2, b3, p0, p1, p2, p3, p4, p5, p6, p7, (firstn 4 (skipn 8 t)).
  split; [exact FF|]. split; [exact V4|]. cbn [of_le] in ML, PZ. split; [rewrite ML; lia|]. rewrite FW, PZ. lia.
Qed.
