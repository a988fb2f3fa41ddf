(* C33, C68: manifest names and finding the latest manifest. *)
From Coq Require Import List Arith NArith ZArith Bool Lia ZifyN ZifyNat.
From Verif Require Import Lib SerdeModel NamingModel.
Import ListNotations.
Local Open Scope N_scope.
Local Opaque N.div N.modulo N.mul N.add N.sub N.pow.

Definition digit (c : N) : Prop := 48 <= c <= 57.
Definition attached (v : N) : Prop := v < 2 ^ 63.
Lemma two63 : 2 ^ 63 = 9223372036854775808. Proof. reflexivity. Qed.

Lemma attached_iff : forall v, v <= u64_max -> (is_detached_version v = false <-> attached v).
Proof.
  intros v L. unfold is_detached_version, attached.
  change 9223372036854775808 with (2 ^ 63).
  assert (E : N.land v (2 ^ 63) = if N.testbit v 63 then 2 ^ 63 else 0).
  { apply N.bits_inj. intros i. rewrite N.land_spec. destruct (N.eq_dec i 63) as [->|D].
    - destruct (N.testbit v 63); rewrite ?N.pow2_bits_true, ?N.bits_0; reflexivity.
    - rewrite N.pow2_bits_false by congruence. rewrite andb_false_r.
      destruct (N.testbit v 63); [rewrite N.pow2_bits_false by congruence|rewrite N.bits_0]; reflexivity. }
  rewrite E. destruct (N.testbit v 63) eqn:T.
  - split; [discriminate|]. intros H. exfalso. destruct (N.eq_dec v 0) as [->|Z]; [rewrite N.bits_0 in T; discriminate|].
    rewrite N.bits_above_log2 in T; [discriminate|]. apply N.log2_lt_pow2; lia.
  - split; [intros _|reflexivity]. destruct (N.lt_ge_cases v (2 ^ 63)) as [|G]; auto. exfalso.
    assert (v <> 0) by (intros ->; rewrite two63 in G; lia).
    assert (N.log2 v = 63). { apply N.log2_unique; [lia|]. split; [exact G|]. change (2 ^ N.succ 63) with 18446744073709551616. unfold u64_max in L. lia. }
    rewrite <- H0, N.bit_log2 in T by assumption. discriminate.
Qed.

(* ---- decimal ---- *)
Lemma to_dec_digits : forall k n, Forall digit (to_dec k n).
Proof.
  induction k as [|k IH]; intros n; cbn [to_dec]; [constructor|].
  destruct (N.ltb_spec n 10).
  - constructor; [unfold digit; lia|constructor].
  - apply Forall_app. split; [apply IH|]. constructor; [|constructor].
    pose proof (N.mod_lt n 10). unfold digit. lia.
Qed.
Lemma to_dec_nonempty : forall k n, to_dec (S k) n <> [].
Proof. intros k n. cbn [to_dec]. destruct (n <? 10); [discriminate|]. destruct (to_dec k (n / 10)); discriminate. Qed.
Lemma pow10_S k : 10 ^ N.of_nat (S k) = 10 * 10 ^ N.of_nat k.
Proof. rewrite Nat2N.inj_succ, N.pow_succ_r'. reflexivity. Qed.
Lemma div10_lt n k : n < 10 ^ N.of_nat (S k) -> n / 10 < 10 ^ N.of_nat k.
Proof. rewrite pow10_S. intros H. apply N.div_lt_upper_bound; lia. Qed.
Lemma to_dec_length : forall f n k, n < 10 ^ N.of_nat (S k) -> (length (to_dec f n) <= S k)%nat.
Proof.
  induction f as [|f IH]; intros n k H; cbn [to_dec]; [cbn; lia|].
  destruct (N.ltb_spec n 10); [cbn; lia|]. rewrite app_length. cbn [length].
  destruct k as [|k]. { rewrite pow10_S in H. change (10 ^ N.of_nat 0) with 1 in H. lia. }
  apply div10_lt in H. apply IH in H. lia.
Qed.

Lemma parse_app : forall a b acc, parse_digits acc (a ++ b) = obind (parse_digits acc a) (fun x => parse_digits x b).
Proof.
  induction a as [|c a IH]; intros b acc; [reflexivity|]. cbn [app parse_digits].
  destruct ((48 <=? c) && (c <=? 57)); [|reflexivity]. destruct (u64_max <? _); [reflexivity|]. apply IH.
Qed.
Lemma parse_to_dec : forall k n, n < 10 ^ N.of_nat k -> n <= u64_max -> (0 < k)%nat -> parse_digits 0 (to_dec k n) = Some n.
Proof.
  assert (D : forall acc d, d < 10 -> acc * 10 + d <= u64_max -> parse_digits acc [48 + d] = Some (acc * 10 + d)).
  { intros acc d H1 H2. cbn [parse_digits]. replace ((48 <=? 48 + d) && (48 + d <=? 57)) with true
      by (symmetry; apply andb_true_iff; split; apply N.leb_le; lia).
    replace (48 + d - 48) with d by lia. cbv zeta. destruct (N.ltb_spec u64_max (acc * 10 + d)); [lia|reflexivity]. }
  induction k as [|k IH]; intros n L M K; [lia|]. cbn [to_dec].
  destruct (N.ltb_spec n 10). { rewrite D; [f_equal; lia|lia|lia]. }
  assert (Hk : (0 < k)%nat). { destruct k; [|lia]. rewrite pow10_S in L. change (10 ^ N.of_nat 0) with 1 in L. lia. }
  pose proof (N.div_mod n 10 ltac:(lia)) as E. pose proof (N.mod_lt n 10 ltac:(lia)) as E'.
  rewrite parse_app, IH; [|apply div10_lt; exact L|lia|exact Hk]. cbn [obind].
  rewrite D; [f_equal; lia|lia|lia].
Qed.
Lemma parse_zeros : forall m s, parse_digits 0 (repeat 48 m ++ s) = parse_digits 0 s.
Proof. induction m as [|m IH]; intros s; [reflexivity|]. cbn [repeat app]. cbn [parse_digits]. change (parse_digits (0 * 10 + (48 - 48)) (repeat 48 m ++ s) = parse_digits 0 s). apply IH. Qed.
Lemma max_lt : u64_max < 10 ^ N.of_nat 20. Proof. reflexivity. Qed.

Lemma parse_u64_digits : forall s, Forall digit s -> s <> [] -> parse_u64 s = parse_digits 0 s.
Proof.
  intros [|c s] F NE; [congruence|]. cbn [parse_u64]. inversion F; subst. unfold digit in *. destruct (N.eqb_spec c 43); [lia|reflexivity].
Qed.
Lemma split_digits : forall s t, Forall digit s -> split_once (s ++ dot :: t) = Some (s, t).
Proof.
  induction s as [|c s IH]; intros t F; [reflexivity|]. inversion F; subst. cbn [app split_once]. unfold digit in *.
  destruct (N.eqb_spec c dot); [unfold dot in *; lia|]. rewrite IH by assumption. reflexivity.
Qed.
Lemma pad_digits : forall n, Forall digit (pad20 (dec n)).
Proof.
  intros n. unfold pad20. apply Forall_app. split; [|apply to_dec_digits].
  apply Forall_forall. intros x H. apply repeat_spec in H. subst. unfold digit. lia.
Qed.
Lemma dec_length n : n <= u64_max -> (length (dec n) <= 20)%nat.
Proof. intros H. apply to_dec_length. pose proof max_lt. lia. Qed.
Lemma pad_length n : n <= u64_max -> length (pad20 (dec n)) = 20%nat.
Proof. intros H. apply dec_length in H. unfold pad20. rewrite app_length, repeat_length. lia. Qed.

Definition num_part (s : scheme) (v : N) : str := match s with V1 => dec v | V2 => pad20 (dec (u64_max - v)) end.
Lemma name_attached s v : attached v -> manifest_name s v = num_part s v ++ dot :: manifest_ext.
Proof.
  intros A. unfold manifest_name. replace (is_detached_version v) with false; [destruct s; reflexivity|].
  symmetry. apply attached_iff; [unfold attached, u64_max in *; rewrite two63 in A; lia|exact A].
Qed.
Lemma num_digits s v : Forall digit (num_part s v).
Proof. destruct s; [apply to_dec_digits|apply pad_digits]. Qed.
Lemma num_nonempty s v : num_part s v <> [].
Proof.
  destruct s; cbn [num_part]; [apply to_dec_nonempty|]. unfold pad20. intros H. apply app_eq_nil in H. destruct H as [_ H]. exact (to_dec_nonempty _ _ H).
Qed.
Lemma attached_max v : attached v -> v <= u64_max.
Proof. unfold attached, u64_max. rewrite two63. lia. Qed.

(* ---- C33 ---- *)
Lemma parse_name : forall s v, attached v -> parse_version s (manifest_name s v) = Some v.
Proof.
  intros s v A. rewrite name_attached by exact A. unfold parse_version. rewrite split_digits by apply num_digits. cbn [obind].
  rewrite parse_u64_digits; [|apply num_digits|apply num_nonempty]. pose proof (attached_max v A). pose proof max_lt.
  destruct s; cbn [num_part].
  - unfold dec. rewrite parse_to_dec; [reflexivity|lia|lia|lia].
  - unfold pad20. rewrite parse_zeros. unfold dec. rewrite parse_to_dec; [|lia|lia|lia]. cbn [omap]. f_equal. lia.
Qed.
Lemma ends_with_app a b : ends_with (a ++ b) b = true.
Proof.
  unfold ends_with. rewrite app_length. replace (length a + length b - length b)%nat with (length a) by lia.
  rewrite skipn_app, skipn_all, Nat.sub_diag. cbn. unfold str_eqb. destruct (list_eq_dec N.eq_dec b b); [|congruence].
  rewrite andb_true_r. apply Nat.leb_le. lia.
Qed.
Lemma detect_name : forall s v, attached v -> detect_scheme (manifest_name s v) = Some s.
Proof.
  intros s v A. rewrite name_attached by exact A.
  pose proof (num_digits s v) as D. pose proof (num_nonempty s v) as NE.
  unfold detect_scheme. destruct (num_part s v ++ dot :: manifest_ext) as [|c t] eqn:E.
  { destruct (num_part s v); discriminate. }
  assert (C : digit c). { destruct (num_part s v) as [|c' t'] eqn:F; [congruence|]. cbn in E. injection E as -> _. inversion D; assumption. }
  destruct (N.eqb_spec c detached_prefix); [unfold digit, detached_prefix in *; lia|]. rewrite <- E.
  replace (num_part s v ++ dot :: manifest_ext) with ((num_part s v ++ [dot]) ++ manifest_ext) at 1 by (rewrite <- app_assoc; reflexivity).
  rewrite ends_with_app. f_equal. rewrite app_length. cbn [length]. destruct s; cbn [num_part].
  - assert (L : (length (dec v) <= 19)%nat).
    { apply to_dec_length. unfold attached in A. rewrite two63 in A. change (10 ^ N.of_nat 19) with 10000000000000000000. lia. }
    destruct (Nat.eqb_spec (length (dec v) + S (length manifest_ext)) (20 + 1 + length manifest_ext)); [lia|reflexivity].
  - rewrite pad_length by lia. reflexivity.
Qed.
(* detached versions are recognised as such: second scheme, no version number *)
Lemma detached_name : forall s v, v <= u64_max -> ~ attached v ->
  detect_scheme (manifest_name s v) = Some V2 /\ parse_version s (manifest_name s v) = None.
Proof.
  intros s v M A. unfold manifest_name. destruct (is_detached_version v) eqn:D; [|apply attached_iff in D; tauto].
  split; [reflexivity|]. unfold parse_version. cbn [split_once]. change (detached_prefix =? dot) with false. cbv iota.
  rewrite split_digits by apply to_dec_digits. cbn [obind]. destruct s; reflexivity.
Qed.
Lemma names_injective : forall s1 s2 v1 v2, attached v1 -> attached v2 -> manifest_name s1 v1 = manifest_name s2 v2 -> s1 = s2 /\ v1 = v2.
Proof.
  intros s1 s2 v1 v2 A1 A2 E. assert (S : s1 = s2).
  { pose proof (detect_name s1 v1 A1) as H. rewrite E, detect_name in H by exact A2. congruence. }
  split; [exact S|]. subst s2. pose proof (parse_name s1 v1 A1) as H. rewrite E, parse_name in H by exact A2. congruence.
Qed.
(* names of staged manifests: the final name, '-' and a uuid *)
Lemma staging_name : forall s v u, attached v -> ~ In dot u -> detect_scheme_staging (manifest_name s v ++ u) = s.
Proof.
  intros s v u A U. rewrite name_attached by exact A. unfold detect_scheme_staging. destruct s.
  - assert (L2 : (length (dec v) <= 19)%nat).
    { apply to_dec_length. unfold attached in A. rewrite two63 in A. change (10 ^ N.of_nat 19) with 10000000000000000000. lia. }
    destruct (nth_error ((num_part V1 v ++ dot :: manifest_ext) ++ u) 20) as [c|] eqn:E; [|reflexivity].
    destruct (N.eqb_spec c dot) as [->|]; [|reflexivity]. exfalso.
    rewrite <- app_assoc in E. cbn [num_part app] in *. rewrite nth_error_app2 in E by lia.
    replace (20 - length (dec v))%nat with (S (19 - length (dec v)))%nat in E by lia. cbn [nth_error] in E.
    apply nth_error_In in E. apply in_app_or in E as [E|E]; [|exact (U E)].
    cbn in E. unfold dot in E. repeat (destruct E as [E|E]; [discriminate|]). exact E.
  - rewrite <- app_assoc. rewrite nth_error_app2 by (cbn [num_part]; rewrite pad_length by lia; lia).
    cbn [num_part]. rewrite pad_length by lia. reflexivity.
Qed.

(* ---- order of V2 names ---- *)
Fixpoint fixed (k : nat) (n : N) : str := match k with O => [] | S k => fixed k (n / 10) ++ [48 + n mod 10] end.
Lemma fixed_length k : forall n, length (fixed k n) = k.
Proof. induction k; intros n; cbn [fixed]; [reflexivity|]. rewrite app_length, IHk. cbn. lia. Qed.
Lemma fixed_0 k : fixed k 0 = repeat 48 k.
Proof. induction k; [reflexivity|]. cbn [fixed]. change (0 / 10) with 0. rewrite IHk. change (48 + 0 mod 10) with 48. replace (repeat 48 (S k)) with (repeat 48 (k + 1)) by (f_equal; lia). rewrite repeat_app. reflexivity. Qed.
Lemma pad_fixed : forall k n, n < 10 ^ N.of_nat k -> repeat 48 (k - length (to_dec k n)) ++ to_dec k n = fixed k n.
Proof.
  induction k as [|k IH]; intros n L; [reflexivity|]. cbn [to_dec fixed]. destruct (N.ltb_spec n 10) as [H|H].
  - cbn [length]. replace (S k - 1)%nat with k by lia. rewrite N.div_small, N.mod_small by exact H. rewrite fixed_0. reflexivity.
  - rewrite app_length. cbn [length]. rewrite app_assoc. f_equal.
    replace (S k - (length (to_dec k (n / 10)) + 1))%nat with (k - length (to_dec k (n / 10)))%nat by lia.
    apply IH. apply div10_lt. exact L.
Qed.
Lemma str_lt_snoc : forall a b x y, length a = length b -> (str_lt (a ++ [x]) (b ++ [y]) <-> str_lt a b \/ a = b /\ x < y).
Proof.
  induction a as [|c a IH]; intros [|d b] x y L; try discriminate.
  - cbn. split; [intros [H|[_ []]]; auto|intros [[]|[_ H]]; auto].
  - cbn [app str_lt]. rewrite IH by (cbn in L; lia). split.
    + intros [H|[-> [H|[-> H]]]]; auto.
    + intros [[H|[-> H]]|[E H]]; auto. injection E as -> ->. auto.
Qed.
Lemma str_lt_suffix : forall a b s, length a = length b -> (str_lt (a ++ s) (b ++ s) <-> str_lt a b).
Proof.
  assert (Irr : forall s, ~ str_lt s s). { induction s; cbn; [tauto|]. intros [H|[_ H]]; [lia|auto]. }
  induction a as [|c a IH]; intros [|d b] s L; try discriminate.
  - cbn. split; [intros H; destruct (Irr s H)|tauto].
  - cbn [app str_lt]. rewrite IH by (cbn in L; lia). tauto.
Qed.
Lemma fixed_order : forall k m n, m < 10 ^ N.of_nat k -> n < 10 ^ N.of_nat k ->
  (str_lt (fixed k m) (fixed k n) <-> m < n) /\ (fixed k m = fixed k n <-> m = n).
Proof.
  induction k as [|k IH]; intros m n Lm Ln.
  - change (10 ^ N.of_nat 0) with 1 in *. cbn. split; split; intros; try contradiction; try lia; try reflexivity. 
  - cbn [fixed]. destruct (IH (m / 10) (n / 10)) as [O E]; try (apply div10_lt; assumption).
    pose proof (N.div_mod m 10 ltac:(lia)). pose proof (N.div_mod n 10 ltac:(lia)).
    pose proof (N.mod_lt m 10 ltac:(lia)). pose proof (N.mod_lt n 10 ltac:(lia)).
    split.
    + rewrite str_lt_snoc by (rewrite !fixed_length; reflexivity). rewrite O, E. lia.
    + split; [|intros ->; reflexivity]. intros F. apply app_inj_tail in F. rewrite E in F. lia.
Qed.
(* newer versions come first in a lexicographic listing *)
Lemma v2_order : forall v w, attached v -> attached w -> (str_lt (manifest_name V2 v) (manifest_name V2 w) <-> w < v).
Proof.
  intros v w Av Aw. rewrite !name_attached by assumption. pose proof (attached_max _ Av). pose proof (attached_max _ Aw). pose proof max_lt.
  cbn [num_part]. rewrite str_lt_suffix by (rewrite !pad_length by lia; reflexivity).
  unfold pad20, dec. rewrite !pad_fixed by lia. rewrite (proj1 (fixed_order 20 (u64_max - v) (u64_max - w) ltac:(lia) ltac:(lia))). lia.
Qed.
(* detached manifests are listed after all attached ones *)
Lemma detached_last : forall s s' v w, attached v -> w <= u64_max -> ~ attached w -> str_lt (manifest_name s v) (manifest_name s' w).
Proof.
  intros s s' v w Av M Aw. rewrite (name_attached s v Av). unfold manifest_name.
  destruct (is_detached_version w) eqn:D; [|apply attached_iff in D; tauto].
  pose proof (num_digits s v) as F. pose proof (num_nonempty s v) as NE. destruct (num_part s v) as [|c t]; [congruence|].
  inversion F; subst. cbn. left. unfold digit, detached_prefix in *. lia.
Qed.
Example naming_ex : manifest_name V1 12 = [49; 50; 46; 109; 97; 110; 105; 102; 101; 115; 116] /\
  parse_version V2 (manifest_name V2 12) = Some 12 /\ detect_scheme (manifest_name V2 0) = Some V2.
Proof. vm_compute. auto. Qed.

(* ---- C68: the latest manifest ---- *)
(* a directory using one naming scheme: every recognised file is the manifest of
   an attached version *)
Definition only_scheme (s : scheme) (l : list str) : Prop :=
  forall f, In f l -> detect_scheme f = None \/ exists v, attached v /\ f = manifest_name s v.
(* the same, with detached manifests *)
Definition with_detached (l : list str) : Prop :=
  forall f, In f l -> detect_scheme f = None \/ exists v, v <= u64_max /\ f = manifest_name V2 v.
Definition is_latest (s : scheme) (l : list str) (v : N) : Prop :=
  attached v /\ In (manifest_name s v) l /\ forall w, attached w -> In (manifest_name s w) l -> w <= v.

Lemma is_latest_unique s l v w : is_latest s l v -> is_latest s l w -> v = w.
Proof. intros [A [B C]] [A' [B' C']]. specialize (C w A' B'). specialize (C' v A B). lia. Qed.

Definition best (latest : option (N * str)) (s : scheme) : Prop := match latest with Some (v, n) => attached v /\ n = manifest_name s v | None => True end.
Definition at_most (latest : option (N * str)) (v : N) : Prop := match latest with Some (w, _) => w <= v | None => True end.
Definition hit (latest : option (N * str)) (v : N) : Prop := match latest with Some (w, _) => w = v | None => False end.
Definition mixed_ok (s : scheme) (l : list str) : Prop :=
  forall f, In f l -> detect_scheme f = None \/ (exists v, attached v /\ f = manifest_name s v) \/ (s = V2 /\ detect_scheme f = Some V2 /\ parse_version V2 f = None).
Lemma local_scan_spec : forall l s sch latest, mixed_ok s l -> (sch = Some s \/ sch = None /\ latest = None) -> best latest s ->
  (exists v, local_scan l sch latest = Found v (manifest_name s v) s /\ attached v /\ at_most latest v /\
             (hit latest v \/ In (manifest_name s v) l) /\ (forall w, attached w -> In (manifest_name s w) l -> w <= v)) \/
  (local_scan l sch latest = NotFound /\ latest = None /\ forall w, attached w -> ~ In (manifest_name s w) l).
Proof.
  induction l as [|f l IH]; intros s sch latest OK SC B; cbn [local_scan].
  - destruct latest as [[v n]|].
    + destruct SC as [->|[_ ?]]; [|discriminate]. destruct B as [A ->]. left. exists v. cbn. repeat split; auto; try lia; contradiction.
    + right. auto.
  - assert (OK' : mixed_ok s l) by (intros g Hg; apply OK; right; exact Hg).
    destruct (OK f (or_introl eq_refl)) as [D|[[v [A ->]]|[-> [D P]]]].
    + rewrite D. destruct (IH s sch latest OK' SC B) as [[v [E [A [M [H W]]]]]|[E [N W]]].
      * left. exists v. repeat split; auto.
        { destruct H as [H|H]; [left; exact H|right; right; exact H]. }
        intros w Aw [F|F]; [|auto]. subst f. rewrite detect_name in D by exact Aw. discriminate.
      * right. repeat split; auto. intros w Aw [F|F]; [|exact (W w Aw F)]. subst f. rewrite detect_name in D by exact Aw. discriminate.
    + rewrite detect_name by exact A. rewrite parse_name by exact A.
      replace (match sch with Some s0 => negb (scheme_eqb s0 s) | None => false end) with false
        by (destruct SC as [->|[-> _]]; [destruct s|]; reflexivity).
      set (sch' := match sch with Some s0 => Some s0 | None => Some s end).
      assert (SC' : sch' = Some s) by (subst sch'; destruct SC as [->|[-> _]]; reflexivity).
      set (latest' := match latest with Some (lv, ln) => if lv <? v then Some (v, manifest_name s v) else Some (lv, ln) | None => Some (v, manifest_name s v) end).
      assert (B' : best latest' s).
      { subst latest'. destruct latest as [[lv ln]|]; cbn; auto. destruct (lv <? v); cbn; auto. }
      assert (X : exists x n, latest' = Some (x, n) /\ v <= x /\ at_most latest x /\ (x = v \/ hit latest x)).
      { subst latest'. destruct latest as [[lv ln]|]; [|exists v; eexists; repeat split; cbn; auto; lia].
        destruct (N.ltb_spec lv v); [exists v|exists lv]; eexists; repeat split; cbn; auto; lia. }
      destruct X as [x [n [EX [X1 [X2 X3]]]]].
      destruct (IH s sch' latest' OK' (or_introl SC') B') as [[w [E [Aw [M [H W]]]]]|[E [N W]]]; [|congruence].
      left. exists w. rewrite EX in M, H. cbn in M, H. repeat split; auto.
      * destruct latest as [[lv ln]|]; cbn in *; auto. lia.
      * destruct H as [->|H]; [|right; right; exact H]. destruct X3 as [->|X3]; [right; left; reflexivity|left; exact X3].
      * intros u Au [F|F]; [|auto]. apply names_injective in F as [_ ->]; auto. lia.
    + rewrite D, P. replace (match sch with Some s0 => negb (scheme_eqb s0 V2) | None => false end) with false
        by (destruct SC as [->|[-> _]]; reflexivity).
      assert (SC' : match sch with Some s0 => Some s0 | None => Some V2 end = Some V2) by (destruct SC as [->|[-> _]]; reflexivity).
      destruct (IH V2 _ latest OK' (or_introl SC') B) as [[v [E [A [M [H W]]]]]|[E [N W]]].
      * left. exists v. repeat split; auto.
        { destruct H as [H|H]; [left; exact H|right; right; exact H]. }
        intros w Aw [F|F]; [|auto]. subst f. rewrite parse_name in P by exact Aw. discriminate.
      * right. repeat split; auto. intros w Aw [F|F]; [|exact (W w Aw F)]. subst f. rewrite parse_name in P by exact Aw. discriminate.
Qed.
Lemma only_mixed s l : only_scheme s l -> mixed_ok s l.
Proof. intros H f Hf. destruct (H f Hf) as [D|[v [A E]]]; [auto|right; left; eauto]. Qed.
Lemma detached_mixed l : with_detached l -> mixed_ok V2 l.
Proof.
  intros H f Hf. destruct (H f Hf) as [D|[v [M ->]]]; [auto|]. destruct (N.lt_ge_cases v (2 ^ 63)) as [A|G]; [right; left; exists v; split; auto|].
  right. right. destruct (detached_name V2 v M) as [D P]; [unfold attached; lia|]. auto.
Qed.

(* local tables: for either scheme, any listing order, with foreign files; and
   with detached manifests under the second scheme *)
Lemma local_latest : forall s l ordered v, only_scheme s l \/ s = V2 /\ with_detached l -> is_latest s l v ->
  current_manifest_path true ordered l = Found v (manifest_name s v) s.
Proof.
  intros s l ordered v H L. assert (OK : mixed_ok s l) by (destruct H as [H|[-> H]]; [apply only_mixed|apply detached_mixed]; exact H).
  unfold current_manifest_path, current_manifest_local.
  destruct (local_scan_spec l s None None OK (or_intror (conj eq_refl eq_refl)) Logic.I) as [[w [E [A [_ [Hw W]]]]]|[_ [_ W]]].
  - rewrite E. destruct Hw as [[]|Hw]. assert (v = w) by (apply (is_latest_unique s l); [exact L|repeat split; auto]). subst. reflexivity.
  - destruct L as [A [B _]]. destruct (W v A B).
Qed.

Lemma valid_spec s : forall l, only_scheme s l -> exists vs, Forall attached vs /\ valid_manifests l = map (fun v => (s, manifest_name s v)) vs /\
  (forall v, attached v -> (In v vs <-> In (manifest_name s v) l)).
Proof.
  induction l as [|f l IH]; intros H.
  - exists []. repeat split; auto.
  - destruct IH as [vs [F [E I]]]; [intros g Hg; apply H; right; exact Hg|]. destruct (H f (or_introl eq_refl)) as [D|[v [A ->]]].
    + exists vs. cbn [valid_manifests]. rewrite D. repeat split; auto; intros K; [right; apply I; auto|].
      destruct K as [K|K]; [subst f; rewrite detect_name in D by assumption; discriminate|apply I; auto].
    + exists (v :: vs). cbn [valid_manifests]. rewrite detect_name by exact A. rewrite E. repeat split; auto; intros K.
      * destruct K as [->|K]; [left; reflexivity|right; apply I; auto].
      * destruct K as [K|K]; [apply names_injective in K as [_ ->]; auto; left; reflexivity|right; apply I; auto].
Qed.
Lemma v1_scan_spec : forall vs c, attached c -> Forall attached vs ->
  exists v, v1_scan c (manifest_name V1 c) (map (fun v => (V1, manifest_name V1 v)) vs) = Found v (manifest_name V1 v) V1 /\
            In v (c :: vs) /\ forall w, In w (c :: vs) -> w <= v.
Proof.
  induction vs as [|x vs IH]; intros c A F; cbn [map v1_scan].
  - exists c. repeat split; [left; reflexivity|]. intros w [->|[]]. lia.
  - inversion F; subst. rewrite parse_name by assumption. destruct (N.ltb_spec c x).
    + destruct (IH x) as [v [E [I M]]]; auto. exists v. repeat split; auto; [right; exact I|].
      intros w [->|[->|K]]; [specialize (M x (or_introl eq_refl)); lia|apply M; left; reflexivity|apply M; right; exact K].
    + destruct (IH c) as [v [E [I M]]]; auto. exists v. repeat split; auto.
      * destruct I as [I|I]; [left; exact I|right; right; exact I].
      * intros w [->|[->|K]]; [apply M; left; reflexivity|specialize (M c (or_introl eq_refl)); lia|apply M; right; exact K].
Qed.
(* remote stores, first scheme, any listing order *)
Lemma remote_v1_latest : forall l ordered v, only_scheme V1 l -> is_latest V1 l v ->
  current_manifest_path false ordered l = Found v (manifest_name V1 v) V1.
Proof.
  intros l ordered v H L. unfold current_manifest_path. destruct (valid_spec V1 l H) as [vs [F [E I]]]. rewrite E.
  destruct vs as [|x vs]. { destruct L as [A [B _]]. apply I in B; auto. destruct B. }
  cbn [map]. inversion F; subst. rewrite parse_name by assumption.
  destruct (v1_scan_spec vs x) as [w [S [K M]]]; auto. rewrite S. cbn [with_scheme].
  assert (v = w); [|subst; reflexivity]. apply (is_latest_unique V1 l); [exact L|].
  assert (Aw : attached w) by (rewrite Forall_forall in F; apply F; exact K).
  repeat split; auto; [apply I; auto|]. intros u Au Iu. apply M. apply I; auto.
Qed.
(* remote stores with ordered listings, second scheme *)
Fixpoint listed (l : list str) : Prop := match l with [] => True | a :: t => (forall b, In b t -> str_lt a b) /\ listed t end.
Lemma valid_incl l s f : In (s, f) (valid_manifests l) -> In f l.
Proof. induction l as [|g l IH]; cbn; [tauto|]. destruct (detect_scheme g); cbn; [intros [E|H]; [injection E as _ ->; auto|auto]|auto]. Qed.
Lemma valid_listed : forall l, listed l -> listed (map snd (valid_manifests l)).
Proof.
  induction l as [|f l IH]; intros H; [exact I|]. destruct H as [H1 H2]. cbn [valid_manifests]. destruct (detect_scheme f); [|auto].
  cbn. split; [|auto]. intros b Hb. apply in_map_iff in Hb as [[s' g] [<- Hb]]. apply H1. eapply valid_incl; eauto.
Qed.
Lemma sanity_ok : forall vs v, Forall attached vs -> sanity v (map (fun v => (V2, manifest_name V2 v)) vs) = true.
Proof. induction vs as [|x vs IH]; intros v F; [reflexivity|]. inversion F; subst. cbn [map sanity]. rewrite parse_name by assumption. destruct (v <=? x); auto. Qed.
Lemma remote_v2_latest : forall l v, only_scheme V2 l -> listed l -> is_latest V2 l v ->
  current_manifest_path false true l = Found v (manifest_name V2 v) V2.
Proof.
  intros l v H S L. unfold current_manifest_path. destruct (valid_spec V2 l H) as [vs [F [E I]]]. apply valid_listed in S. rewrite E in *.
  destruct vs as [|x vs]. { destruct L as [A [B _]]. apply I in B; auto. destruct B. }
  cbn [map] in *. inversion F; subst. rewrite parse_name by assumption. rewrite firstn_map, sanity_ok.
  - assert (v = x); [|subst; reflexivity]. apply (is_latest_unique V2 l); [exact L|]. repeat split; auto; [apply I; auto; left; reflexivity|].
    intros w Aw Iw. apply I in Iw; auto. destruct Iw as [->|Iw]; [lia|]. destruct S as [S _].
    assert (str_lt (manifest_name V2 x) (manifest_name V2 w)). { apply S. rewrite map_map. cbn. apply in_map. exact Iw. }
    apply v2_order in H0; auto. lia.
  - apply Forall_forall. intros y Hy. assert (In y vs). { rewrite <- (firstn_skipn 999 vs). apply in_or_app. left. exact Hy. }
    rewrite Forall_forall in H3. auto.
Qed.
(* remote stores without ordered listings cannot read a table with the second
   scheme once it has two versions *)
Lemma unordered_v2_fails_refuted : forall l v w, only_scheme V2 l -> attached v -> attached w -> v <> w ->
  In (manifest_name V2 v) l -> In (manifest_name V2 w) l -> current_manifest_path false false l = LErr.
Proof.
  intros l v w H Av Aw D Iv Iw. unfold current_manifest_path. destruct (valid_spec V2 l H) as [vs [F [E I]]]. rewrite E.
  apply I in Iv; auto. apply I in Iw; auto. destruct vs as [|x [|y vs]]; [destruct Iv| |].
  - destruct Iv as [<-|[]], Iw as [<-|[]]. congruence.
  - cbn [map]. inversion F; subst. rewrite parse_name by assumption. reflexivity.
Qed.
(* on an ordered store one detached manifest makes the lookup panic *)
Lemma ordered_detached_refuted : exists l v, with_detached l /\ listed l /\ is_latest V2 l v /\ current_manifest_path false true l = LPanic.
Proof.
  exists [manifest_name V2 2; manifest_name V2 1; manifest_name V2 9223372036854775809], 2. split; [|split; [|split]].
  - intros f [<-|[<-|[<-|[]]]]; right; eexists; (split; [|reflexivity]); unfold u64_max; lia.
  - assert (A : forall n, n <= 2 -> attached n) by (intros n H; unfold attached; rewrite two63; lia).
    assert (NA : ~ attached 9223372036854775809) by (unfold attached; rewrite two63; lia).
    assert (M : 9223372036854775809 <= u64_max) by (unfold u64_max; lia).
    cbn [listed]. repeat split; auto; try contradiction.
    + intros b [<-|[<-|[]]]; [apply v2_order; try (apply A); lia|apply detached_last; auto; apply A; lia].
    + intros b [<-|[]]. apply detached_last; auto.
  - split; [|split]; [unfold attached; rewrite two63; lia|left; reflexivity|].
    intros w Aw [E|[E|[E|[]]]]; [apply names_injective in E as [_ <-]; auto|apply names_injective in E as [_ <-]; auto|]; try lia; try (unfold attached; rewrite two63; lia).
    pose proof (parse_name V2 w Aw) as P. rewrite <- E in P. vm_compute in P. discriminate.
  - vm_compute. reflexivity.
Qed.
(* and so does any ordered listing whose first thousand files include one right
   after the attached ones *)
Lemma ordered_detached_panics : forall vs d, Forall attached vs -> vs <> [] -> (length vs <= 999)%nat -> d <= u64_max -> ~ attached d ->
  listed (map (manifest_name V2) (vs ++ [d])) -> current_manifest_path false true (map (manifest_name V2) (vs ++ [d])) = LPanic.
Proof.
  intros vs d F NE LN M ND LS. unfold current_manifest_path.
  assert (VM : forall us, Forall attached us -> valid_manifests (map (manifest_name V2) (us ++ [d])) = map (fun v => (V2, manifest_name V2 v)) (us ++ [d])).
  { induction us as [|u us IH]; intros Fu.
    - cbn [app map valid_manifests]. rewrite (proj1 (detached_name V2 d M ND)). reflexivity.
    - inversion Fu; subst. cbn [app map valid_manifests]. rewrite detect_name by assumption. rewrite IH by assumption. reflexivity. }
  rewrite VM by exact F. destruct vs as [|x vs]; [congruence|]. cbn [app map] in *. inversion F; subst. rewrite parse_name by assumption.
  destruct LS as [LS _].
  assert (SN : forall us n, Forall attached us -> (length us < n)%nat -> (forall u, In u us -> u < x) ->
            sanity x (firstn n (map (fun v => (V2, manifest_name V2 v)) (us ++ [d]))) = false).
  { induction us as [|u us IH]; intros [|n] Fu Ln Hu; try (cbn in Ln; lia).
    - cbn [app map firstn sanity]. rewrite (proj2 (detached_name V2 d M ND)). reflexivity.
    - inversion Fu; subst. cbn [app map firstn sanity]. rewrite parse_name by assumption.
      destruct (N.leb_spec x u); [specialize (Hu u (or_introl eq_refl)); lia|]. apply IH; auto; [cbn in Ln; lia|]. intros; apply Hu; right; assumption. }
  rewrite SN; auto. intros u Hu. apply v2_order; auto; [rewrite Forall_forall in H2; auto|]. apply LS. apply in_map. apply in_or_app. left. exact Hu.
Qed.
Example latest_ex : current_manifest_path false true [manifest_name V2 3; manifest_name V2 2; [120]] = Found 3 (manifest_name V2 3) V2 /\
  current_manifest_path false true [manifest_name V1 10; manifest_name V1 2] = Found 10 (manifest_name V1 10) V1 /\
  current_manifest_path true false [manifest_name V2 2; manifest_name V2 9223372036854775809; manifest_name V2 3] = Found 3 (manifest_name V2 3) V2.
Proof. vm_compute. auto. Qed.
