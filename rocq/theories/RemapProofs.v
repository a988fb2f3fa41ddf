(* Proofs about the address map built by a compaction (C50). *)
From Coq Require Import List Arith NArith Lia Bool.
From Coq Require Import ZifyN ZifyNat.
From Verif Require Import Lib AMap SerdeModel CompactModel.
Import ListNotations.
Local Open Scope N_scope.

(* ---- the claim ---- *)
(* all row addresses of a list of fragments (id, physical rows), in scan order *)
Definition addresses (l : list (N * N)) : list N := flat_map (fun f => nrange (fst f * 2 ^ 32) (N.to_nat (snd f))) l.
Definition sizes_ok (l : list (N * N)) : Prop := forall f, In f l -> 0 < snd f < 2 ^ 32.

Local Opaque N.div N.modulo N.mul N.add N.eqb.
Lemma missing_ok : forall keep fuel rows last id phys more k,
  sizes_ok ((id, phys) :: more) -> k < phys ->
  let todo := nrange (id * two32 + k) (N.to_nat (phys - k)) ++ addresses more in
  (length todo <= fuel)%nat ->
  match last with Some v => v :: rows | None => rows end = filter keep todo \/ (filter keep todo = [] /\ rows = [] /\ last = Some 0) ->
  (forall pre post, todo = pre ++ 0 :: post -> keep 0 = true \/ filter keep post <> []) ->
  missing_ids fuel rows last ((id, phys) :: more) (id * two32 + k) = filter (fun a => negb (keep a)) todo.
Proof.
  intros keep fuel. induction fuel as [|fuel IH]; intros rows last id phys more k OK K todo L P Z.
  - exfalso. unfold todo in L. rewrite app_length, nrange_length in L. lia.
  - destruct (OK (id, phys)) as [P0 P32]; [left; reflexivity|]. cbn in P0, P32. change 4294967296 with two32 in P32.
    set (e := id * two32 + k) in *.
    assert (T : todo = e :: (nrange (e + 1) (N.to_nat (phys - (k + 1))) ++ addresses more)).
    { unfold todo. replace (N.to_nat (phys - k)) with (S (N.to_nat (phys - (k + 1)))) by lia. reflexivity. }
    set (todo' := nrange (e + 1) (N.to_nat (phys - (k + 1))) ++ addresses more) in *.
    (* the rest of the walk *)
    assert (STEP : forall rows' last',
      match last' with Some v => v :: rows' | None => rows' end = filter keep todo' \/ (filter keep todo' = [] /\ rows' = [] /\ last' = Some 0) ->
      let '(frags', expected') := if (e + 1) mod two32 =? phys then (more, match more with (id2, _) :: _ => id2 * two32 | [] => e + 1 end) else ((id, phys) :: more, e + 1) in
      missing_ids fuel rows' last' frags' expected' = filter (fun a => negb (keep a)) todo').
    { intros rows' last' P'. assert (L' : (length todo' <= fuel)%nat) by (rewrite T in L; cbn in L; lia).
      assert (Z' : forall pre post, todo' = pre ++ 0 :: post -> keep 0 = true \/ filter keep post <> []) by (intros pre post E; apply (Z (e :: pre) post); rewrite T, E; reflexivity).
      assert (M : (e + 1) mod two32 = k + 1 \/ (k + 1 = two32 /\ phys = two32)).
      { destruct (N.eq_dec (k + 1) two32); [right; lia|]. left. unfold e. replace (id * two32 + k + 1) with (k + 1 + id * two32) by lia. rewrite N.mod_add by discriminate. apply N.mod_small. lia. }
      destruct M as [M|M]; [|lia]. rewrite M. destruct (N.eqb_spec (k + 1) phys) as [E|E].
      - assert (T' : todo' = addresses more) by (unfold todo'; replace (phys - (k + 1)) with 0 by lia; reflexivity).
        destruct more as [|[id2 phys2] more].
        + rewrite T'. destruct fuel; reflexivity.
        + assert (T2 : todo' = nrange (id2 * two32 + 0) (N.to_nat (phys2 - 0)) ++ addresses more).
          { rewrite T'. cbn [addresses flat_map fst snd]. rewrite N.add_0_r, N.sub_0_r. reflexivity. }
          rewrite T2 in *. rewrite <- (N.add_0_r (id2 * two32)) at 1. apply IH; auto.
          * intros f J. apply OK. right. exact J.
          * destruct (OK (id2, phys2)) as [X _]; [right; left; reflexivity|]. exact X.
      - assert (T2 : todo' = nrange (id * two32 + (k + 1)) (N.to_nat (phys - (k + 1))) ++ addresses more) by (unfold todo', e; rewrite N.add_assoc; reflexivity).
        unfold e. rewrite <- N.add_assoc. rewrite T2 in *. apply IH; auto. lia. }
    assert (DIV : e / two32 = id). { unfold e. rewrite N.add_comm. rewrite N.div_add by discriminate. rewrite N.div_small by lia. reflexivity. }
    cbn [missing_ids]. rewrite T. cbn [filter]. destruct (keep e) eqn:KE; cbn [negb].
    + (* e is live: the next row must be e *)
      destruct P as [P|[P _]]; [|exfalso; rewrite T in P; cbn in P; rewrite KE in P; discriminate].
      rewrite T in P. cbn [filter] in P. rewrite KE in P. destruct last as [v|].
      * injection P as -> Pr. rewrite DIV, !N.eqb_refl. cbn [negb]. specialize (STEP rows None (or_introl Pr)). destruct ((e + 1) mod two32 =? phys); exact STEP.
      * rewrite P. rewrite DIV, !N.eqb_refl. cbn [negb]. specialize (STEP (filter keep todo') None (or_introl eq_refl)). destruct ((e + 1) mod two32 =? phys); exact STEP.
    + assert (FT : filter keep todo = filter keep todo') by (rewrite T; cbn; rewrite KE; reflexivity).
      assert (EMIT : forall v rows', v <> e -> (v :: rows' = filter keep todo' \/ (filter keep todo' = [] /\ rows' = [] /\ v = 0)) ->
        (let '(frags', expected') := if (e + 1) mod two32 =? phys then (more, match more with (id2, _) :: _ => id2 * two32 | [] => e + 1 end) else ((id, phys) :: more, e + 1) in
         if negb (v / two32 =? id) then e :: missing_ids fuel rows' (Some v) frags' expected'
         else if negb (v =? e) then e :: missing_ids fuel rows' (Some v) frags' expected' else missing_ids fuel rows' None frags' expected') = e :: filter (fun a => negb (keep a)) todo').
      { intros v rows' NE P'. assert (P2 : match Some v with Some v0 => v0 :: rows' | None => rows' end = filter keep todo' \/ (filter keep todo' = [] /\ rows' = [] /\ Some v = Some 0)).
        { destruct P' as [P'|[A [B C]]]; [left; exact P'|right; split; [exact A|split; [exact B|rewrite C; reflexivity]]]. }
        specialize (STEP rows' (Some v) P2). destruct (N.eqb_spec v e) as [X|X]; [contradiction|]. cbn [negb]. destruct ((e + 1) mod two32 =? phys).
        - rewrite STEP. destruct (negb (v / two32 =? id)); reflexivity.
        - rewrite STEP. destruct (negb (v / two32 =? id)); reflexivity. }
      assert (LIVE : forall v r, v :: r = filter keep todo' -> v <> e).
      { intros v r E X. assert (J : In v (filter keep todo')) by (rewrite <- E; left; reflexivity). apply filter_In in J as [_ J]. subst v. congruence. }
      assert (ZERO : filter keep todo' = [] -> 0 <> e).
      { intros E X. destruct (Z [] todo') as [Y|Y]; [rewrite T, <- X; reflexivity|rewrite X in Y; congruence|contradiction]. }
      rewrite FT in P. destruct last as [v|].
      * apply EMIT; [|destruct P as [P|[A [B C]]]; [left; exact P|right; injection C as ->; auto]].
        destruct P as [P|[A [B C]]]; [eapply LIVE; eassumption|injection C as ->; apply ZERO; exact A].
      * destruct P as [P|[_ [_ P]]]; [|discriminate]. destruct rows as [|r rows].
        -- apply EMIT; [apply ZERO; symmetry; exact P|right; auto].
        -- apply EMIT; [eapply LIVE; eassumption|left; exact P].
Qed.
Lemma missing_spec : forall keep fuel frags rows, frags <> [] -> sizes_ok frags -> rows = filter keep (addresses frags) -> (length (addresses frags) <= fuel)%nat ->
  (forall pre post, addresses frags = pre ++ 0 :: post -> keep 0 = true \/ filter keep post <> []) ->
  missing fuel rows frags = Some (filter (fun a => negb (keep a)) (addresses frags)).
Proof.
  intros keep fuel [|[id phys] more] rows N OK E L Z; [contradiction|]. cbn [missing]. f_equal. rewrite <- (N.add_0_r (id * two32)).
  assert (T : addresses ((id, phys) :: more) = nrange (id * two32 + 0) (N.to_nat (phys - 0)) ++ addresses more).
  { cbn [addresses flat_map fst snd]. rewrite N.add_0_r, N.sub_0_r. reflexivity. }
  rewrite T in *. apply missing_ok; auto. destruct (OK (id, phys)) as [X _]; [left; reflexivity|]. exact X.
Qed.

Definition increasing_ids (l : list (N * N)) : Prop := sinc (map fst l).
Lemma addresses_sinc : forall l, increasing_ids l -> sizes_ok l -> sinc (addresses l).
Proof.
  assert (LOW : forall l b x, (forall y, In y (map fst l) -> b < y) -> In x (addresses l) -> (b + 1) * 2 ^ 32 <= x).
  { intros l b x H J. apply in_flat_map in J as [f [If J]]. apply nrange_In in J. specialize (H (fst f) (in_map fst _ _ If)). nia. }
  induction l as [|f l IH]; intros I OK; [exact Logic.I|]. destruct I as [I1 I2]. change (addresses (f :: l)) with (nrange (fst f * 2 ^ 32) (N.to_nat (snd f)) ++ addresses l).
  apply sinc_app. split; [apply nrange_sinc|]. split; [apply IH; [exact I2|intros g J; apply OK; right; exact J]|].
  intros x y Hx Hy. apply nrange_In in Hx. apply (LOW l (fst f) y I1) in Hy. destruct (OK f (or_introl eq_refl)) as [_ X]. lia.
Qed.
Lemma new_ids_addresses : forall l, (forall f, In f l -> fst f < 2 ^ 32 /\ snd f < 2 ^ 32) -> new_ids l = addresses l.
Proof.
  assert (M : forall n f s, map (fun o => addr_of f o) (nrange s n) = nrange (f * 2 ^ 32 + s) n).
  { induction n as [|n IH]; intros f s; [reflexivity|]. cbn [nrange map]. rewrite IH. unfold addr_of. rewrite N.add_assoc. reflexivity. }
  induction l as [|f l IH]; intros H; [reflexivity|]. unfold new_ids, addresses. cbn [flat_map]. f_equal; [|apply IH; intros; apply H; right; assumption].
  destruct (H f (or_introl eq_refl)) as [A B]. rewrite !N.mod_small by assumption. rewrite M, N.add_0_r. reflexivity.
Qed.
Lemma addresses_NoDup : forall l, NoDup (map fst l) -> (forall f, In f l -> snd f < 2 ^ 32) -> NoDup (addresses l).
Proof.
  induction l as [|f l IH]; intros D H; [constructor|]. inversion D as [|? ? D1 D2]; subst. change (addresses (f :: l)) with (nrange (fst f * 2 ^ 32) (N.to_nat (snd f)) ++ addresses l).
  assert (IHl : NoDup (addresses l)) by (apply IH; [exact D2|intros; apply H; right; assumption]).
  assert (DIS : forall x, In x (nrange (fst f * 2 ^ 32) (N.to_nat (snd f))) -> ~ In x (addresses l)).
  { intros x J K. apply in_flat_map in K as [g [Ig K]]. apply nrange_In in J, K. apply D1. replace (fst f) with (fst g); [apply in_map; exact Ig|].
    pose proof (H f (or_introl eq_refl)). pose proof (H g (or_intror Ig)). nia. }
  revert DIS. pose proof (sinc_NoDup _ (nrange_sinc (N.to_nat (snd f)) (fst f * 2 ^ 32))) as ND. revert ND. generalize (nrange (fst f * 2 ^ 32) (N.to_nat (snd f))).
  intros r ND DIS. induction ND as [|x r NI ND IHr]; [exact IHl|]. cbn. constructor.
  - rewrite in_app_iff. intros [J|J]; [contradiction|]. apply (DIS x); [left; reflexivity|exact J].
  - apply IHr. intros y Iy. apply DIS. right. exact Iy.
Qed.

(* ---- lookups ---- *)
Lemma lookup_app : forall m1 m2 a, lookup (m1 ++ m2) a = match lookup m2 a with Some v => Some v | None => lookup m1 a end.
Proof.
  intros m1 m2 a. unfold lookup. rewrite fold_left_app. generalize (fold_left (fun acc kv => if fst kv =? a then Some (snd kv) else acc) m1 None). intros o. revert o.
  assert (G : forall m o, fold_left (fun acc (kv : N * option N) => if fst kv =? a then Some (snd kv) else acc) m o =
     match fold_left (fun acc (kv : N * option N) => if fst kv =? a then Some (snd kv) else acc) m None with Some v => Some v | None => o end).
  { induction m as [|kv m IH]; intros o; [reflexivity|]. cbn [fold_left]. destruct (fst kv =? a); [|apply IH]. rewrite (IH (Some (snd kv))). destruct (fold_left _ m None); reflexivity. }
  intros o. apply G.
Qed.
Lemma lookup_cons : forall kv m a, lookup (kv :: m) a = match lookup m a with Some v => Some v | None => if fst kv =? a then Some (snd kv) else None end.
Proof. intros. change (kv :: m) with ([kv] ++ m). rewrite lookup_app. reflexivity. Qed.
Lemma lookup_notin : forall m a, ~ In a (map fst m) -> lookup m a = None.
Proof.
  induction m as [|kv m IH]; intros a H; [reflexivity|]. rewrite lookup_cons, IH by (intros X; apply H; right; exact X). destruct (N.eqb_spec (fst kv) a); [|reflexivity].
  exfalso. apply H. left. assumption.
Qed.
Lemma lookup_gone : forall l a, lookup (map (fun a => (a, None)) l) a = if memN a l then Some None else None.
Proof.
  induction l as [|x l IH]; intros a; [reflexivity|]. cbn [map]. rewrite lookup_cons, IH. cbn [fst snd memN]. destruct (memN a l) eqn:M.
  - replace (memN a (x :: l)) with true; [reflexivity|]. symmetry. apply memN_In. right. apply memN_In. exact M.
  - destruct (N.eqb_spec x a).
    + replace (memN a (x :: l)) with true; [reflexivity|]. symmetry. apply memN_In. left. assumption.
    + replace (memN a (x :: l)) with false; [reflexivity|]. symmetry. apply memN_false. apply memN_false in M. intros [X|X]; contradiction.
Qed.
Lemma lookup_zip : forall rows news i a, NoDup rows -> length news = length rows -> nth_error rows i = Some a ->
  lookup (map (fun p => (fst p, Some (snd p))) (combine rows news)) a = Some (nth_error news i).
Proof.
  induction rows as [|r rows IH]; intros news i a D L E; [destruct i; discriminate|]. destruct news as [|n news]; [discriminate|]. inversion D as [|? ? D1 D2]; subst. cbn in L.
  cbn [combine map fst snd]. rewrite lookup_cons. cbn [fst snd]. destruct i as [|i].
  - injection E as ->. rewrite lookup_notin, N.eqb_refl; [reflexivity|]. rewrite map_map. cbn [fst]. intros X. apply in_map_iff in X as [[p q] [E X]]. cbn in E. subst p. apply in_combine_l in X. contradiction.
  - cbn [nth_error] in *. erewrite IH; [|exact D2|lia|exact E]. reflexivity.
Qed.
Lemma transpose_spec : forall fuel (live : N -> Prop) row_ids old new,
  old <> [] -> increasing_ids old -> sizes_ok old ->
  sinc row_ids -> (forall a, In a row_ids <-> In a (addresses old) /\ live a) ->
  (row_ids <> [] \/ ~ In 0 (map fst old)) ->
  NoDup (map fst new) -> (forall f, In f new -> fst f < 2 ^ 32 /\ snd f < 2 ^ 32) -> length (addresses new) = length row_ids ->
  (length (addresses old) <= fuel)%nat ->
  exists m, transpose_row_ids fuel row_ids old new = Some m /\
    (forall i a, nth_error row_ids i = Some a -> lookup m a = Some (nth_error (addresses new) i) /\ nth_error (addresses new) i <> None) /\
    (forall a, In a (addresses old) -> ~ live a -> lookup m a = Some None) /\
    (forall a, ~ In a (addresses old) -> lookup m a = None) /\
    (forall a a' b, lookup m a = Some (Some b) -> lookup m a' = Some (Some b) -> a = a') /\
    (forall b, In b (addresses new) -> exists a, In a (addresses old) /\ live a /\ lookup m a = Some (Some b)).
Proof.
  intros fuel live row_ids old new NE INC OK SR HR HZ ND NB LN LF.
  set (keep := fun a => memN a row_ids).
  assert (SA : sinc (addresses old)) by (apply addresses_sinc; assumption).
  assert (ER : row_ids = filter keep (addresses old)).
  { apply sinc_ext; [exact SR|apply sinc_filter; exact SA|]. intros a. rewrite filter_In. unfold keep. rewrite memN_In, HR. tauto. }
  assert (MS : missing fuel row_ids old = Some (filter (fun a => negb (keep a)) (addresses old))).
  { apply missing_spec; auto. intros pre post E. destruct HZ as [HZ|HZ].
    - destruct pre as [|p pre].
      + destruct (keep 0) eqn:K; [left; reflexivity|right]. intros X. apply HZ. rewrite ER, E. cbn. rewrite K. exact X.
      + exfalso. rewrite E in SA. destruct SA as [SA _]. specialize (SA 0). cbn in SA. assert (p < 0) by (apply SA; apply in_or_app; right; left; reflexivity). lia.
    - exfalso. assert (J : In 0 (addresses old)) by (rewrite E; apply in_or_app; right; left; reflexivity). apply in_flat_map in J as [f [If J]]. apply nrange_In in J. apply HZ.
      replace 0 with (fst f) by lia. apply in_map. exact If. }
  unfold transpose_row_ids. rewrite MS. rewrite (new_ids_addresses new NB). set (gone := filter (fun a => negb (keep a)) (addresses old)).
  set (zip := map (fun p => (fst p, Some (snd p))) (combine row_ids (addresses new))). exists (zip ++ map (fun a => (a, None)) gone). split; [reflexivity|].
  assert (G1 : forall a, In a gone <-> In a (addresses old) /\ ~ live a).
  { intros a. unfold gone. rewrite filter_In. unfold keep. rewrite negb_true_iff, memN_false, HR. tauto. }
  assert (LK : forall a, lookup (zip ++ map (fun a => (a, None)) gone) a = if memN a gone then Some None else lookup zip a).
  { intros a. rewrite lookup_app, lookup_gone. destruct (memN a gone); reflexivity. }
  assert (L1 : forall i a, nth_error row_ids i = Some a -> lookup (zip ++ map (fun a => (a, None)) gone) a = Some (nth_error (addresses new) i) /\ nth_error (addresses new) i <> None).
  { intros i a E. split.
    - rewrite LK. replace (memN a gone) with false; [apply lookup_zip; [apply sinc_NoDup; exact SR|exact LN|exact E]|].
      symmetry. apply memN_false. rewrite G1. apply nth_error_In in E. apply HR in E. tauto.
    - apply nth_error_Some. rewrite LN. apply nth_error_Some. congruence. }
  assert (INV : forall a b, lookup (zip ++ map (fun a => (a, None)) gone) a = Some (Some b) -> exists i, nth_error row_ids i = Some a /\ nth_error (addresses new) i = Some b).
  { intros a b E. pose proof E as E'. rewrite LK in E. destruct (memN a gone); [discriminate|]. destruct (in_dec N.eq_dec a row_ids) as [J|J].
    - apply In_nth_error in J as [i J]. exists i. split; [exact J|]. destruct (L1 i a J) as [X _]. congruence.
    - rewrite lookup_notin in E; [discriminate|]. unfold zip. rewrite map_map. cbn [fst]. intros X. apply in_map_iff in X as [[p q] [Ep X]]. cbn in Ep. subst p. apply in_combine_l in X. contradiction. }
  split; [exact L1|]. split; [|split; [|split]].
  - intros a J NL. rewrite LK. replace (memN a gone) with true; [reflexivity|]. symmetry. apply memN_In, G1. auto.
  - intros a NI. rewrite LK. replace (memN a gone) with false by (symmetry; apply memN_false; rewrite G1; tauto). apply lookup_notin. unfold zip. rewrite map_map. cbn [fst].
    intros X. apply in_map_iff in X as [[p q] [Ep X]]. cbn in Ep. subst p. apply in_combine_l in X. apply HR in X. tauto.
  - intros a a' b E E'. apply INV in E as [i [A B]]. apply INV in E' as [j [A' B']].
    assert (DN : NoDup (addresses new)) by (apply addresses_NoDup; [exact ND|intros f J; apply NB; exact J]). rewrite NoDup_nth_error in DN.
    assert (i = j). { apply DN; [apply nth_error_Some; congruence|congruence]. } congruence.
  - intros b J. apply In_nth_error in J as [i J]. assert (X : exists a, nth_error row_ids i = Some a).
    { destruct (nth_error row_ids i) eqn:E; [eauto|]. apply nth_error_None in E. assert (i < length (addresses new))%nat by (apply nth_error_Some; congruence). lia. }
    destruct X as [a X]. exists a. pose proof (nth_error_In _ _ X) as Ia. apply HR in Ia. split; [tauto|]. split; [tauto|]. destruct (L1 i a X) as [Y _]. congruence.
Qed.
(* order: the i-th surviving address goes to the i-th new address; new addresses
   ascend when the new fragment ids do *)
Lemma transpose_order : forall fuel (live : N -> Prop) row_ids old new m,
  old <> [] -> increasing_ids old -> sizes_ok old -> sinc row_ids -> (forall a, In a row_ids <-> In a (addresses old) /\ live a) ->
  (row_ids <> [] \/ ~ In 0 (map fst old)) -> increasing_ids new -> sizes_ok new -> (forall f, In f new -> fst f < 2 ^ 32) -> length (addresses new) = length row_ids ->
  (length (addresses old) <= fuel)%nat -> transpose_row_ids fuel row_ids old new = Some m ->
  forall a a' b b', lookup m a = Some (Some b) -> lookup m a' = Some (Some b') -> a < a' -> b < b'.
Proof.
  intros fuel live row_ids old new m NE INC OK SR HR HZ NI NOK NB LN LF E.
  destruct (transpose_spec fuel live row_ids old new NE INC OK SR HR HZ (sinc_NoDup _ NI)) as [m' [E' [L1 [L2 [L3 _]]]]]; auto.
  { intros f J. split; [auto|]. destruct (NOK f J). assumption. }
  assert (m' = m) by congruence. subst m'.
  assert (INV : forall a b, lookup m a = Some (Some b) -> exists i, nth_error row_ids i = Some a /\ nth_error (addresses new) i = Some b).
  { intros a b H. destruct (in_dec N.eq_dec a row_ids) as [J|J].
    - apply In_nth_error in J as [i J]. exists i. split; [exact J|]. destruct (L1 i a J) as [X _]. congruence.
    - exfalso. destruct (in_dec N.eq_dec a (addresses old)) as [K|K]; [rewrite L2 in H; [discriminate|exact K|intros X; apply J, HR; auto]|rewrite L3 in H by exact K; discriminate]. }
  assert (MONO : forall l i j x y, sinc l -> nth_error l i = Some x -> nth_error l j = Some y -> (x < y <-> (i < j)%nat)).
  { clear. induction l as [|z l IH]; intros i j x y S Hi Hj; [destruct i; discriminate|]. destruct S as [S1 S2]. destruct i as [|i], j as [|j]; cbn in Hi, Hj.
    - injection Hi as ->. injection Hj as ->. lia.
    - injection Hi as ->. apply nth_error_In in Hj. apply S1 in Hj. lia.
    - injection Hj as ->. apply nth_error_In in Hi. apply S1 in Hi. lia.
    - rewrite (IH i j x y S2 Hi Hj). lia. }
  intros a a' b b' H H' LT. apply INV in H as [i [A B]]. apply INV in H' as [j [A' B']].
  apply (MONO _ i j b b' (addresses_sinc new NI NOK) B B'). apply (MONO _ i j a a' SR A A'). exact LT.
Qed.
(* the excluded cases: no surviving row and a fragment 0; a fragment without rows *)
Lemma all_deleted_refuted : exists m, transpose_row_ids 10 [] [(0, 3)] [] = Some m /\ In 0 (addresses [(0, 3)]) /\ lookup m 0 = None /\ lookup m 1 = Some None.
Proof. eexists. split; [vm_compute; reflexivity|]. vm_compute. auto. Qed.
Lemma empty_fragment_refuted : exists m, transpose_row_ids 10 [2 ^ 32] [(0, 0); (1, 1)] [(5, 1)] = Some m /\ ~ In 3 (addresses [(0, 0); (1, 1)]) /\ lookup m 3 = Some None.
Proof. eexists. split; [vm_compute; reflexivity|]. vm_compute. split; [intros [X|[]]; discriminate|reflexivity]. Qed.
Example transpose_ex : transpose_row_ids 20 [1; 3; 2 ^ 32 * 3; 2 ^ 32 * 3 + 2] [(0, 5); (3, 3)] [(7, 3); (8, 1)] =
  Some [(1, Some (2 ^ 32 * 7)); (3, Some (2 ^ 32 * 7 + 1)); (2 ^ 32 * 3, Some (2 ^ 32 * 7 + 2)); (2 ^ 32 * 3 + 2, Some (2 ^ 32 * 8));
        (0, None); (2, None); (4, None); (2 ^ 32 * 3 + 1, None)].
Proof. vm_compute. reflexivity. Qed.
Example transpose_hyps_ex : increasing_ids [(0, 5); (3, 3)] /\ sizes_ok [(0, 5); (3, 3)] /\ length (addresses [(7, 3); (8, 1)]) = 4%nat.
Proof. split; [cbn; split; [intros y [<-|[]]; lia|split; [intros y []|exact Logic.I]]|]. split; [|reflexivity]. intros f [<-|[<-|[]]]; cbn; lia. Qed.
