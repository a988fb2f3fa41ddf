(* Pages with a dictionary: what is read is what was written. *)
From Coq Require Import List Arith NArith Bool Lia.
From Verif Require Import Lib SchedModel SerdeModel SerdeProofs FullZipModel MiniModel DictModel.
Import ListNotations.
Local Open Scope nat_scope.

(* ---- specification ---- *)
(* at most n different values *)
Definition distinct_at_most (n : nat) (vals : list value) : Prop := exists l, NoDup l /\ length l <= n /\ incl vals l.
(* more than n different values *)
Definition distinct_more (n : nat) (vals : list value) : Prop := exists l, NoDup l /\ n < length l /\ incl l vals.
(* the values of a block that the dictionary takes *)
Inductive holds : block -> list value -> Prop :=
| holds_fixed : forall vals, Forall (fun v => length v = 16) vals -> holds (BFixed 128 vals) vals
| holds_var : forall offs data vals, var_values offs data = Some vals -> holds (BVar 32 offs data) vals.

(* ---- the dictionary ---- *)
Lemma value_eqb_ok : forall a b, value_eqb a b = true <-> a = b.
Proof. intros a b. unfold value_eqb. destruct (list_eq_dec N.eq_dec a b); split; congruence. Qed.
Definition vdec := list_eq_dec N.eq_dec.
Fixpoint first_occ (dict vals : list value) : list value :=
  match vals with [] => dict | v :: t => if in_dec vdec v dict then first_occ dict t else first_occ (dict ++ [v]) t end.
Fixpoint pos (v : value) (l : list value) : nat :=
  match l with [] => 0 | x :: t => if vdec x v then 0 else S (pos v t) end.
Definition codes (l : list value) : list (value * nat) := combine l (map (fun i => i mod 256) (seq 0 (length l))).

Lemma find_codes : forall v l a, find_value v (combine l (map (fun i => i mod 256) (seq a (length l)))) = if in_dec vdec v l then Some ((a + pos v l) mod 256) else None.
Proof.
  intros v l. induction l as [|x l IH]; intros a; [reflexivity|]. cbn [length seq map combine find_value pos].
  destruct (value_eqb x v) eqn:E.
  - apply value_eqb_ok in E. subst x. destruct (vdec v v); [|congruence]. destruct (in_dec vdec v (v :: l)) as [|n]; [now rewrite Nat.add_0_r|]. exfalso. apply n. now left.
  - assert (x <> v) by (intros X; apply value_eqb_ok in X; congruence).
    rewrite IH. destruct (vdec x v); [contradiction|]. destruct (in_dec vdec v l) as [i|i]; destruct (in_dec vdec v (x :: l)) as [j|j].
    + now rewrite Nat.add_succ_r.
    + exfalso. apply j. now right.
    + destruct j as [j|j]; contradiction.
    + reflexivity.
Qed.
Lemma codes_snoc : forall l v, codes (l ++ [v]) = codes l ++ [(v, length l mod 256)].
Proof.
  intros l v. unfold codes. rewrite app_length. cbn [length]. rewrite Nat.add_1_r, seq_S, map_app. cbn [map plus].
  assert (C : forall A B (a c : list A) (b d : list B), length a = length b -> combine (a ++ c) (b ++ d) = combine a b ++ combine c d).
  { intros A B a. induction a as [|x a IH]; intros c [|y b] d H; cbn in H; try lia; [reflexivity|]. cbn. f_equal. apply IH. lia. }
  rewrite C by now rewrite map_length, seq_length. reflexivity.
Qed.
Lemma first_occ_front : forall vals dict, exists r, first_occ dict vals = dict ++ r.
Proof.
  induction vals as [|v vals IH]; intros dict; [exists []; now rewrite app_nil_r|]. cbn [first_occ]. destruct (in_dec vdec v dict); [apply IH|].
  destruct (IH (dict ++ [v])) as [r ->]. exists (v :: r). now rewrite <- app_assoc.
Qed.
Lemma nodup_snoc : forall (l : list value) v, NoDup l -> ~ In v l -> NoDup (l ++ [v]).
Proof.
  intros l v H. induction H as [|x l X H IH]; intros I; cbn [app].
  { constructor; [intros []|constructor]. }
  constructor.
  - intros J. apply in_app_or in J. destruct J as [J|[J|[]]]; [contradiction|]. apply I. now left.
  - apply IH. intros J. apply I. now right.
Qed.
Lemma first_occ_nodup : forall vals dict, NoDup dict -> NoDup (first_occ dict vals).
Proof.
  induction vals as [|v vals IH]; intros dict H; [exact H|]. cbn [first_occ]. destruct (in_dec vdec v dict); [auto|]. apply IH.
  now apply nodup_snoc.
Qed.
Lemma first_occ_in : forall vals dict v, In v (first_occ dict vals) <-> In v dict \/ In v vals.
Proof.
  induction vals as [|x vals IH]; intros dict v; [cbn; tauto|]. cbn [first_occ]. destruct (in_dec vdec x dict) as [i|i]; rewrite IH; [|rewrite in_app_iff]; cbn [In]; split; intros; intuition (subst; auto).
Qed.
Lemma pos_app : forall v a b, In v a -> pos v (a ++ b) = pos v a.
Proof.
  intros v a b. induction a as [|x a IH]; intros H; [destruct H|]. cbn [app pos]. destruct (vdec x v); [reflexivity|]. f_equal. apply IH. destruct H; [contradiction|assumption].
Qed.
Lemma pos_new : forall v a, ~ In v a -> pos v (a ++ [v]) = length a.
Proof.
  intros v a. induction a as [|x a IH]; intros H; cbn [app pos length].
  - destruct (vdec v v); congruence.
  - destruct (vdec x v); [subst; exfalso; apply H; now left|]. f_equal. apply IH. intros I. apply H. now right.
Qed.
Lemma pos_nth : forall v l d, In v l -> pos v l < length l /\ nth (pos v l) l d = v.
Proof.
  intros v l d. induction l as [|x l IH]; intros H; [destruct H|]. cbn [pos length]. destruct (vdec x v); [subst; cbn; split; [lia|reflexivity]|].
  destruct IH as [A B]; [destruct H; [contradiction|assumption]|]. cbn [nth]. split; [lia|exact B].
Qed.
Lemma nth_pos : forall l i d, NoDup l -> i < length l -> pos (nth i l d) l = i.
Proof.
  induction l as [|x l IH]; intros i d ND L; [cbn in L; lia|]. inversion_clear ND as [|? ? A B]. destruct i as [|i]; cbn [nth pos].
  - destruct (vdec x x); congruence.
  - cbn [length] in L. destruct (vdec x (nth i l d)) as [E|E]; [exfalso; apply A; rewrite E; apply nth_In; lia|]. f_equal. apply IH; [assumption|lia].
Qed.

Lemma mod_succ : forall n, (n mod 256 + 1) mod 256 = (n + 1) mod 256.
Proof. intros n. rewrite Nat.add_mod_idemp_l by lia. reflexivity. Qed.
Lemma loop_ok : forall debug vals dict, NoDup dict -> (debug = true -> length dict <= 255) ->
  dict_loop debug vals (codes dict) dict (length dict mod 256) =
    let D := first_occ dict vals in
    if debug && (255 <? length D) then Panic else Done (map (fun v => pos v D mod 256) vals, (D, length D mod 256)).
Proof.
  intros debug vals. induction vals as [|v vals IH]; intros dict ND DB; cbv zeta.
  - cbn [dict_loop first_occ map]. destruct debug; [|reflexivity]. specialize (DB eq_refl). rewrite (proj2 (Nat.ltb_ge 255 (length dict))) by lia. reflexivity.
  - cbn [dict_loop first_occ]. unfold codes at 1. rewrite find_codes. cbn [plus]. destruct (in_dec vdec v dict) as [I|I].
    + rewrite (IH dict ND DB). cbv zeta. destruct (debug && (255 <? length (first_occ dict vals))); [reflexivity|]. cbn [map].
      destruct (first_occ_front vals dict) as [r E]. assert (PV : pos v (first_occ dict vals) = pos v dict) by (rewrite E; now apply pos_app). rewrite PV. reflexivity.
    + assert (ND' : NoDup (dict ++ [v])).
      { now apply nodup_snoc. }
      assert (LS : length (dict ++ [v]) = length dict + 1) by (rewrite app_length; reflexivity).
      destruct (first_occ_front vals (dict ++ [v])) as [r E].
      assert (PV : pos v (first_occ (dict ++ [v]) vals) = length dict).
      { rewrite E, pos_app by (apply in_or_app; right; now left). apply pos_new. exact I. }
      destruct ((length dict mod 256 =? 255) && debug) eqn:C.
      * apply andb_prop in C. destruct C as [C ->]. apply Nat.eqb_eq in C. specialize (DB eq_refl). rewrite Nat.mod_small in C by lia.
        rewrite (proj2 (Nat.ltb_lt 255 (length (first_occ (dict ++ [v]) vals)))); [reflexivity|]. rewrite E, !app_length. cbn [length]. lia.
      * assert (DB' : debug = true -> length (dict ++ [v]) <= 255).
        { intros ->. specialize (DB eq_refl). rewrite andb_true_r, Nat.mod_small in C by lia. apply Nat.eqb_neq in C. lia. }
        specialize (IH (dict ++ [v]) ND' DB'). rewrite codes_snoc, LS in IH. rewrite mod_succ, IH. cbv zeta.
        destruct (debug && (255 <? length (first_occ (dict ++ [v]) vals))); [reflexivity|]. cbn [map]. rewrite PV. reflexivity.
Qed.
Lemma loop_start : forall debug vals, dict_loop debug vals [] [] 0 =
  let D := first_occ [] vals in if debug && (255 <? length D) then Panic else Done (map (fun v => pos v D mod 256) vals, (D, length D mod 256)).
Proof. intros debug vals. apply (loop_ok debug vals []); [constructor|cbn; lia]. Qed.
Definition firsts (vals : list value) : list value := first_occ [] vals.
Lemma firsts_in : forall vals v, In v (firsts vals) <-> In v vals.
Proof. intros vals v. unfold firsts. rewrite first_occ_in. cbn. tauto. Qed.
Lemma firsts_nodup : forall vals, NoDup (firsts vals).
Proof. intros vals. apply first_occ_nodup. constructor. Qed.
Lemma firsts_few : forall n vals, distinct_at_most n vals <-> length (firsts vals) <= n.
Proof.
  intros n vals. split.
  - intros (l & ND & L & I). etransitivity; [|exact L]. apply NoDup_incl_length; [apply firsts_nodup|]. intros v V. apply I. now apply firsts_in.
  - intros L. exists (firsts vals). split; [apply firsts_nodup|]. split; [exact L|]. intros v V. now apply firsts_in.
Qed.
Lemma firsts_many : forall n vals, distinct_more n vals <-> n < length (firsts vals).
Proof.
  intros n vals. split.
  - intros (l & ND & L & I). eapply Nat.lt_le_trans; [exact L|]. apply NoDup_incl_length; [exact ND|]. intros v V. apply firsts_in. now apply I.
  - intros L. exists (firsts vals). split; [apply firsts_nodup|]. split; [exact L|]. intros v V. now apply firsts_in.
Qed.

(* ---- the entries of the dictionary ---- *)
Lemma cut_mid' : forall A (a b c : list A) s e, s = length a -> e = length a + length b -> cut s e (a ++ b ++ c) = Some b.
Proof.
  intros A a b c s e -> ->. unfold cut. rewrite !app_length, (proj2 (Nat.leb_le _ _)), (proj2 (Nat.leb_le _ _)) by lia. cbn [andb].
  rewrite skipn_app, Nat.sub_diag, skipn_all. cbn [app skipn]. replace (length a + length b - length a) with (length b) by lia.
  rewrite firstn_app, Nat.sub_diag, firstn_all. cbn [firstn]. now rewrite app_nil_r.
Qed.
Lemma at_split : forall A (l : list A) i d, i < length l -> l = firstn i l ++ nth i l d :: skipn (S i) l.
Proof.
  intros A l. induction l as [|x l IH]; intros i d H; [cbn in H; lia|]. destruct i as [|i]; [reflexivity|]. cbn [firstn nth skipn app length] in *. f_equal. apply IH. lia.
Qed.
Lemma concat_at : forall (l : list value) i, i < length l -> cut (length (concat (firstn i l))) (length (concat (firstn i l)) + length (nth i l [])) (concat l) = Some (nth i l []).
Proof.
  intros l i H. assert (E : concat l = concat (firstn i l) ++ nth i l [] ++ concat (skipn (S i) l)).
  { rewrite (at_split _ l i [] H) at 1. rewrite concat_app. reflexivity. }
  rewrite E at 1. now apply cut_mid'.
Qed.
Lemma fixed_len : forall w (l : list value), Forall (fun v => length v = w) l -> length (concat l) = length l * w.
Proof. intros w l H. induction H as [|v l V H IH]; [reflexivity|]. cbn [concat length]. rewrite app_length, V, IH. lia. Qed.
Lemma Forall_firstn' : forall A (P : A -> Prop) l i, Forall P l -> Forall P (firstn i l).
Proof. intros A P l i H. rewrite <- (firstn_skipn i l) in H. now apply Forall_app in H. Qed.
Lemma offsets_at : forall l len i, i <= length l -> nth_error (dict_offsets len l) i = Some (len + length (concat (firstn i l))).
Proof.
  induction l as [|v l IH]; intros len i H; [cbn in H; assert (i = 0) by lia; subst; cbn; f_equal; lia|].
  destruct i as [|i]; [cbn; f_equal; lia|]. cbn [dict_offsets nth_error firstn concat length] in *. rewrite IH by lia. rewrite app_length. f_equal. lia.
Qed.
Lemma offsets_len : forall l len, length (dict_offsets len l) = S (length l).
Proof. induction l as [|v l IH]; intros len; [reflexivity|]. cbn [dict_offsets length]. now rewrite IH. Qed.
Lemma offsets_bound : forall l len, Forall (fun x => x <= len + length (concat l)) (dict_offsets len l).
Proof. induction l as [|v l IH]; intros len; cbn [dict_offsets concat]; constructor; try (rewrite ?app_length; cbn; lia); [constructor|]. eapply Forall_impl; [|apply IH]. cbv beta. intros a A. rewrite app_length. lia. Qed.
Lemma firstn_succ_concat : forall (l : list value) i, i < length l -> length (concat (firstn (S i) l)) = length (concat (firstn i l)) + length (nth i l []).
Proof.
  induction l as [|v l IH]; intros i H; [cbn in H; lia|]. destruct i as [|i]; [cbn; rewrite app_nil_r; lia|].
  change (firstn (S (S i)) (v :: l)) with (v :: firstn (S i) l). cbn [firstn concat nth length] in *. rewrite !app_length, IH by lia. lia.
Qed.

Definition flat_dict (l : list value) : dict := {| d_kind := KFlat; d_offsets := []; d_bytes := concat l; d_num := length (concat l) / 16 |}.
Definition var_dict (l : list value) (n : nat) : dict := {| d_kind := KVariable; d_offsets := dict_offsets 0 l; d_bytes := concat l; d_num := n |}.
Lemma flat_entry : forall l i, Forall (fun v => length v = 16) l -> i < length l -> entry (flat_dict l) i = Some (nth i l []).
Proof.
  intros l i F H. unfold entry, flat_dict. cbn [d_kind d_bytes]. rewrite <- (concat_at l i H) at 1.
  assert (A : length (concat (firstn i l)) = i * 16).
  { rewrite (fixed_len 16) by now apply Forall_firstn'. rewrite firstn_length. f_equal. lia. }
  assert (B : length (nth i l []) = 16) by (rewrite Forall_forall in F; apply F; now apply nth_In).
  rewrite A, B. f_equal. lia.
Qed.
Lemma var_entry : forall l n i, i < length l -> entry (var_dict l n) i = Some (nth i l []).
Proof.
  intros l n i H. unfold entry, var_dict. cbn [d_kind d_bytes d_offsets]. rewrite !offsets_at by lia. cbn [obind].
  rewrite !Nat.add_0_l, Nat.add_1_r, firstn_succ_concat by exact H. now apply concat_at.
Qed.

(* ---- the bytes of the dictionary ---- *)
Lemma u32_flat : forall l, Forall (fun x => (N.of_nat x < 4294967296)%N) l -> u32_bytes l = flat_map (le_bytes 4) (map N.of_nat l).
Proof.
  intros l H. unfold u32_bytes. induction H as [|x l X H IH]; [reflexivity|]. cbn [flat_map map]. rewrite IH. f_equal. f_equal.
  unfold trunc. apply N.mod_small. change (2 ^ (8 * N.of_nat 4))%N with 4294967296%N. exact X.
Qed.
Lemma u32_back : forall l, Forall (fun x => (N.of_nat x < 4294967296)%N) l -> map (fun x => N.to_nat (of_le_bytes x)) (map (le_bytes 4) (map N.of_nat l)) = l.
Proof.
  intros l H. rewrite !map_map. transitivity (map (fun x : nat => x) l); [apply map_ext_in|apply map_id]. rewrite Forall_forall in H. intros x X. rewrite of_le_bytes_le; [lia|]. change (256 ^ N.of_nat 4)%N with 4294967296%N. now apply H.
Qed.
Lemma var_block : forall l n, (N.of_nat n < 4294967296)%N -> (N.of_nat (8 + 4 * S (length l) + length (concat l)) < 4294967296)%N ->
  exists buf, compress_block (BVar 32 (dict_offsets 0 l) (concat l)) n = Some (KVariable, buf) /\ decompress_block KVariable buf = Some (var_dict l n).
Proof.
  intros l n HN HL. eexists. split; [reflexivity|].
  set (offs := dict_offsets 0 l). set (start := 8 + 4 * length offs).
  assert (LO : length offs = S (length l)) by apply offsets_len.
  assert (FO : Forall (fun x => (N.of_nat x < 4294967296)%N) offs).
  { eapply Forall_impl; [|apply offsets_bound]. cbv beta. intros a A. rewrite Nat.add_0_l in A. lia. }
  rewrite (u32_flat offs FO).
  assert (F1 : Forall (fun x => (N.of_nat x < 4294967296)%N) [n]) by (constructor; [exact HN|constructor]).
  assert (F2 : Forall (fun x => (N.of_nat x < 4294967296)%N) [start]) by (constructor; [unfold start; rewrite LO; lia|constructor]).
  assert (E2 : u32_bytes [n; start] = flat_map (le_bytes 4) [N.of_nat n] ++ flat_map (le_bytes 4) [N.of_nat start]).
  { change (u32_bytes [n; start]) with (u32_bytes ([n] ++ [start])). rewrite u32_flat by (apply Forall_app; split; assumption). rewrite map_app, flat_map_app. reflexivity. }
  rewrite E2. set (a := flat_map (le_bytes 4) [N.of_nat n]). set (b := flat_map (le_bytes 4) [N.of_nat start]).
  assert (La : length a = 4) by reflexivity. assert (Lb : length b = 4) by reflexivity.
  set (o := flat_map (le_bytes 4) (map N.of_nat offs)). assert (Lo : length o = 4 * length offs) by (unfold o; rewrite flat_le_length, map_length; lia).
  unfold decompress_block.
  assert (C1 : cut 0 4 ((a ++ b) ++ o ++ concat l) = Some a) by (rewrite <- app_assoc; apply (cut_mid' _ [] a); [reflexivity|now rewrite La]).
  assert (C2 : cut 4 8 ((a ++ b) ++ o ++ concat l) = Some b) by (rewrite <- app_assoc; apply cut_mid'; lia).
  rewrite C1. cbn [obind]. rewrite C2. cbn [obind].
  assert (B1 : N.to_nat (of_le_bytes b) = start).
  { unfold b. cbn [flat_map]. rewrite app_nil_r. rewrite of_le_bytes_le; [lia|]. change (256 ^ N.of_nat 4)%N with 4294967296%N. now inversion F2. }
  assert (A1 : N.to_nat (of_le_bytes a) = n).
  { unfold a. cbn [flat_map]. rewrite app_nil_r. rewrite of_le_bytes_le; [lia|]. change (256 ^ N.of_nat 4)%N with 4294967296%N. now inversion F1. }
  rewrite B1, A1. rewrite (proj2 (Nat.ltb_ge start 8)) by (unfold start; lia).
  rewrite (cut_mid' _ (a ++ b) o) by (rewrite app_length; unfold start; lia). cbn [obind].
  rewrite app_assoc. rewrite <- (app_nil_r (concat l)) at 2. rewrite (cut_mid' _ ((a ++ b) ++ o) (concat l) []) by (rewrite !app_length; unfold start; cbn [length]; lia). cbn [obind].
  unfold var_dict. do 2 f_equal. unfold o. rewrite chunks_exact_flat by lia. now apply u32_back.
Qed.

(* ---- pages ---- *)
Lemma first_occ_size : forall vals d, length (concat (first_occ d vals)) <= length (concat d) + length (concat vals).
Proof.
  induction vals as [|v vals IH]; intros d; [cbn; lia|]. cbn [first_occ concat]. rewrite app_length. destruct (in_dec vdec v d); [specialize (IH d); lia|].
  specialize (IH (d ++ [v])). rewrite concat_app, app_length in IH. cbn in IH. rewrite app_nil_r in IH. lia.
Qed.
Lemma sequence_map : forall A C (f : A -> option C) (g : A -> C) l, (forall x, In x l -> f x = Some (g x)) -> sequence_opt (map f l) = Some (map g l).
Proof. intros A C f g l. induction l as [|x l IH]; intros H; [reflexivity|]. cbn [map sequence_opt]. rewrite (H x) by now left. rewrite IH; [reflexivity|]. intros y Y. apply H. now right. Qed.
Lemma indices_at : forall (f : value -> nat) vals sel, Forall (fun i => i < length vals) sel ->
  sequence_opt (map (nth_error (map f vals)) sel) = Some (map (fun i => f (nth i vals [])) sel).
Proof.
  intros f vals sel H. apply sequence_map. rewrite Forall_forall in H. intros i I. rewrite nth_error_map, (nth_error_nth' vals []) by (apply H, I). reflexivity.
Qed.
(* the dictionary of a block, as it is read *)
Lemma encode_holds : forall debug b vals, holds b vals -> (length (firsts vals) <= 255 \/ debug = false) -> (N.of_nat (length (concat vals)) < 2147483648)%N -> (N.of_nat (length (firsts vals)) < 268435456)%N ->
  exists d n k buf dict, dictionary_encode debug b = Done (map (fun v => pos v (firsts vals) mod 256) vals, (d, n)) /\ compress_block d n = Some (k, buf) /\
    decompress_block k buf = Some dict /\ (forall i, i < length (firsts vals) -> entry dict i = Some (nth i (firsts vals) [])) /\
    d_num dict = match k with KFlat => length (firsts vals) | KVariable => length (firsts vals) mod 256 end /\ (k = KVariable <-> exists offs data, b = BVar 32 offs data).
Proof.
  intros debug b vals H L SZ LN.
  assert (LP : dict_loop debug vals [] [] 0 = Done (map (fun v => pos v (firsts vals) mod 256) vals, (firsts vals, length (firsts vals) mod 256))).
  { rewrite loop_start. cbv zeta. fold (firsts vals). destruct L as [L| ->]; [|reflexivity]. rewrite (proj2 (Nat.ltb_ge 255 _)) by lia. rewrite andb_false_r. reflexivity. }
  destruct H as [vals F|offs data vals V]; cbn [dictionary_encode].
  - rewrite LP. do 2 eexists. exists KFlat, (concat (firsts vals)), (flat_dict (firsts vals)). split; [reflexivity|]. split; [reflexivity|]. split; [reflexivity|].
    assert (FF : Forall (fun v => length v = 16) (firsts vals)) by (apply Forall_forall; intros v I; rewrite Forall_forall in F; apply F; now apply firsts_in).
    split; [intros i I; now apply flat_entry|]. split; [|split; [discriminate|intros (? & ? & ?); discriminate]].
    cbn [d_num flat_dict]. rewrite (fixed_len 16) by exact FF. apply Nat.div_mul. lia.
  - rewrite V, LP. pose proof (first_occ_size vals []) as FS. fold (firsts vals) in FS. cbn in FS.
    assert (M : length (firsts vals) mod 256 < 256) by (apply Nat.mod_upper_bound; lia).
    destruct (var_block (firsts vals) (length (firsts vals) mod 256)) as (buf & C & D); [lia|lia|].
    do 2 eexists. exists KVariable, buf, (var_dict (firsts vals) (length (firsts vals) mod 256)). split; [reflexivity|]. split; [exact C|]. split; [exact D|].
    split; [intros i I; now apply var_entry|]. split; [reflexivity|]. split; [intros _; eauto|reflexivity].
Qed.
Lemma read_with : forall vals k buf dict sel, decompress_block k buf = Some dict -> (forall i, i < length (firsts vals) -> entry dict i = Some (nth i (firsts vals) [])) ->
  d_num dict <> 0 -> sel <> [] -> Forall (fun i => i < length vals) sel -> length (firsts vals) <= 256 ->
  read_items (map (fun v => pos v (firsts vals) mod 256) vals) k buf sel = Some (map (fun i => nth i vals []) sel).
Proof.
  intros vals k buf dict sel D E NZ NE B L. unfold read_items. rewrite D. cbn [obind]. rewrite (indices_at (fun v => pos v (firsts vals) mod 256)) by exact B. cbn [obind]. unfold dict_decode.
  rewrite (proj2 (Nat.eqb_neq _ 0)) by exact NZ. destruct sel as [|i sel]; [congruence|]. set (l := i :: sel) in *. assert (NM : map (fun i => pos (nth i vals []) (firsts vals) mod 256) l <> []) by (unfold l; discriminate).
  destruct (map (fun i => pos (nth i vals []) (firsts vals) mod 256) l) as [|x t] eqn:EM; [congruence|]. rewrite <- EM. rewrite map_map. apply sequence_map. rewrite Forall_forall in B. intros j J.
  assert (I : In (nth j vals []) (firsts vals)) by (apply firsts_in, nth_In, B, J). destruct (pos_nth _ _ [] I) as [P Q]. rewrite Nat.mod_small by lia. rewrite E by exact P. now rewrite Q.
Qed.
Lemma firsts_pos : forall vals, vals <> [] -> 0 < length (firsts vals).
Proof. intros [|v vals] H; [congruence|]. assert (I : In v (firsts (v :: vals))) by (apply firsts_in; now left). destruct (firsts (v :: vals)); [destruct I|cbn; lia]. Qed.
Lemma sel_ne : forall (vals : list value) sel, sel <> [] -> Forall (fun i => i < length vals) sel -> vals <> [].
Proof. intros vals [|i sel] H F; [congruence|]. inversion_clear F as [|? ? A B]. destruct vals; [cbn in A; lia|discriminate]. Qed.

(* At most 255 different values: the page is written, and any items read back. *)
Theorem few_values : forall estimate debug b vals sel, holds b vals -> uses_dictionary estimate b = true -> distinct_at_most 255 vals -> (N.of_nat (length (concat vals)) < 2147483648)%N ->
  sel <> [] -> Forall (fun i => i < length vals) sel ->
  exists is k buf, encode_page estimate debug b = Done (WithDict is k buf) /\ read_items is k buf sel = Some (map (fun i => nth i vals []) sel).
Proof.
  intros estimate debug b vals sel H U L SZ NE B. apply firsts_few in L. destruct (encode_holds debug b vals H (or_introl L) SZ ltac:(lia)) as (d & n & k & buf & dict & E & C & D & EN & NM & _).
  unfold encode_page. rewrite U, E, C. do 3 eexists. split; [reflexivity|]. eapply read_with; try eassumption; [|lia].
  pose proof (firsts_pos vals (sel_ne vals sel NE B)). rewrite NM. destruct k; [lia|]. rewrite Nat.mod_small by lia. lia.
Qed.
(* More than 255: the writer panics where arithmetic is checked. *)
Theorem many_values_checked : forall estimate b vals, holds b vals -> uses_dictionary estimate b = true -> distinct_more 255 vals -> encode_page estimate true b = Panic.
Proof.
  intros estimate b vals H U L. apply firsts_many in L. unfold encode_page. rewrite U.
  assert (LP : dict_loop true vals [] [] 0 = Panic) by (rewrite loop_start; cbv zeta; fold (firsts vals); rewrite (proj2 (Nat.ltb_lt 255 _)) by lia; reflexivity).
  destruct H as [vals F|offs data vals V]; cbn [dictionary_encode]; [|rewrite V]; rewrite LP; reflexivity.
Qed.
(* Exactly 256, arithmetic not checked: values of a fixed width still read back, strings do not. *)
Theorem strings_256 : forall estimate offs data vals sel, var_values offs data = Some vals -> uses_dictionary estimate (BVar 32 offs data) = true -> distinct_at_most 256 vals -> distinct_more 255 vals ->
  (N.of_nat (length (concat vals)) < 2147483648)%N ->
  exists is k buf, encode_page estimate false (BVar 32 offs data) = Done (WithDict is k buf) /\ read_items is k buf sel = None.
Proof.
  intros estimate offs data vals sel V U L1 L2 SZ. apply firsts_few in L1. apply firsts_many in L2. destruct (encode_holds false _ vals (holds_var _ _ _ V) (or_intror eq_refl) SZ ltac:(lia)) as (d & n & k & buf & dict & E & C & D & EN & NM & K).
  unfold encode_page. rewrite U, E, C. do 3 eexists. split; [reflexivity|]. unfold read_items. rewrite D. cbn [obind].
  assert (k = KVariable) by (apply K; eauto). subst k. replace (length (firsts vals)) with 256 in NM by lia. cbn in NM.
  destruct (sequence_opt _) as [is|]; [|reflexivity]. cbn [obind]. unfold dict_decode. rewrite NM. reflexivity.
Qed.
(* More than 256, arithmetic not checked: the page is written and some item does not read back. *)
Theorem many_values_unchecked : forall estimate b vals, holds b vals -> uses_dictionary estimate b = true -> distinct_more 256 vals -> (N.of_nat (length (concat vals)) < 2147483648)%N -> (N.of_nat (length vals) < 268435456)%N ->
  exists is k buf i, encode_page estimate false b = Done (WithDict is k buf) /\ i < length vals /\ read_items is k buf [i] <> Some [nth i vals []].
Proof.
  intros estimate b vals H U L SZ LN. apply firsts_many in L.
  assert (LF : length (firsts vals) <= length vals) by (apply NoDup_incl_length; [apply firsts_nodup|intros v V; now apply firsts_in]).
  destruct (encode_holds false b vals H (or_intror eq_refl) SZ ltac:(lia)) as (d & n & k & buf & dict & E & C & D & EN & NM & _).
  unfold encode_page. rewrite U, E, C. do 3 eexists.
  set (v := nth 256 (firsts vals) []). assert (I : In v vals) by (apply firsts_in, nth_In; lia).
  destruct (In_nth vals v [] I) as (i & Hi & Ei). exists i. split; [reflexivity|]. split; [exact Hi|].
  unfold read_items. rewrite D. cbn [obind]. rewrite (indices_at (fun v => pos v (firsts vals) mod 256)) by (constructor; [exact Hi|constructor]). cbn [obind map]. rewrite Ei.
  unfold dict_decode. destruct (d_num dict =? 0); [discriminate|]. cbn [map sequence_opt]. unfold v at 1. rewrite nth_pos by (try apply firsts_nodup; lia). change (256 mod 256) with 0. rewrite EN by lia.
  intros X. injection X as X. assert (Q : pos (nth 0 (firsts vals) []) (firsts vals) = pos v (firsts vals)) by now rewrite X.
  unfold v in Q. rewrite !nth_pos in Q by (try apply firsts_nodup; lia). lia.
Qed.
Theorem fixed_256 : forall estimate vals sel, Forall (fun v => length v = 16) vals -> uses_dictionary estimate (BFixed 128 vals) = true -> distinct_at_most 256 vals -> (N.of_nat (length (concat vals)) < 2147483648)%N ->
  sel <> [] -> Forall (fun i => i < length vals) sel ->
  exists is k buf, encode_page estimate false (BFixed 128 vals) = Done (WithDict is k buf) /\ read_items is k buf sel = Some (map (fun i => nth i vals []) sel).
Proof.
  intros estimate vals sel F U L SZ NE B. apply firsts_few in L. destruct (encode_holds false _ vals (holds_fixed _ F) (or_intror eq_refl) SZ ltac:(lia)) as (d & n & k & buf & dict & E & C & D & EN & NM & K).
  unfold encode_page. rewrite U, E, C. do 3 eexists. split; [reflexivity|]. eapply read_with; try eassumption.
  destruct k; [|destruct K as [K _]; destruct (K eq_refl) as (? & ? & ?); discriminate]. pose proof (firsts_pos vals (sel_ne vals sel NE B)). lia.
Qed.
(* Blocks that have the statistic but that the dictionary does not take. *)
Theorem other_blocks : forall estimate debug b, uses_dictionary estimate b = true ->
  (exists inner valid, b = BNullable inner valid) \/ (exists dim child, b = BFsl dim child) \/ (exists offs data, b = BVar 64 offs data) -> encode_page estimate debug b = Panic.
Proof. intros estimate debug b U [(x & y & ->)|[(x & y & ->)|(x & y & ->)]]; unfold encode_page; rewrite U; reflexivity. Qed.
(* Reading no items of a page with a dictionary panics. *)
Theorem no_items : forall is k buf, read_items is k buf [] = None.
Proof. intros is k buf. unfold read_items. destruct (decompress_block k buf) as [d|]; [|reflexivity]. cbn [obind map sequence_opt]. unfold dict_decode. destruct (d_num d =? 0); reflexivity. Qed.
