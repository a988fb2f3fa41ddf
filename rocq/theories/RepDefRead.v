(* Reading back the levels of pages without lists (C105, C106). *)
From Coq Require Import List Arith Bool Lia.
From Verif Require Import Lib RepDefModel RepDefProofs.
Import ListNotations.
Local Open Scope nat_scope.

(* ---- one page ---- *)
Definition step1 (u : unraveler) : option (unraveler * option (list bool)) :=
  obind (u_all_valid u) (fun a => if a then Some (skip_validity u, None) else omap (fun '(u', v) => (u', Some v)) (unravel_validity u)).
Fixpoint read1 (ks : list kind) (u : unraveler) : option (list (option (list bool))) :=
  match ks with
  | [] => Some []
  | KItem :: t => obind (step1 u) (fun '(u', v) => omap (cons v) (read1 t u'))
  | KFsl d :: t => obind (decimate d u) (fun u => obind (step1 u) (fun '(u', v) => omap (cons v) (read1 t u')))
  | KList :: _ => None
  end.
Lemma nth_skipn : forall (d : nat) l k, nth k (skipn d l) 0 = nth (d + k) l 0.
Proof. induction d as [|d IH]; intros l k; [reflexivity|]. destruct l as [|a l]; [destruct k; reflexivity|]. cbn [skipn Nat.add nth]. apply IH. Qed.
Lemma every_spec : forall dim q fuel l, 0 < dim -> length l = q * dim -> q <= fuel -> every fuel dim l = map (fun j => nth (j * dim) l 0) (seq 0 q).
Proof.
  intros dim. induction q as [|q IH]; intros fuel l D L F.
  - destruct l; [|cbn in L; lia]. destruct fuel; reflexivity.
  - destruct fuel as [|fuel]; [lia|]. destruct l as [|x l]; [cbn in L; lia|]. cbn [every seq map]. f_equal. rewrite <- seq_shift, map_map. rewrite (IH fuel (skipn dim (x :: l))); [|exact D|rewrite skipn_length; lia|lia].
    apply map_ext. intros j. rewrite nth_skipn. f_equal.
Qed.
Lemma visible_zero : forall l2r c d, (forall x, In x d -> nth_error l2r x = Some 0) -> visible l2r 0 c d = Some (map (fun x => x <=? c) d).
Proof. induction d as [|x d IH]; intros H; [reflexivity|]. cbn. rewrite (H x) by (left; reflexivity). cbn. rewrite IH; [reflexivity|]. intros y J. apply H. right. exact J. Qed.
Lemma mults_multiple : forall ks M m, In m (mults M ks) -> exists k, m = M * k.
Proof.
  induction ks as [|k ks IH]; intros M m J; [destruct J|]. rewrite mults_cons in J. destruct J as [<-|J].
  - destruct k as [|d|]; [exists 1|exists d|exists 1]; cbn; lia.
  - destruct (IH _ _ J) as [x ->]. destruct k as [|d|]; cbn; [exists x|exists (d * x)|exists x]; lia.
Qed.
Lemma group_div : forall M k i, 0 < M -> 0 < k -> (i / M * M) / (M * k) = i / (M * k).
Proof. intros M k i HM Hk. rewrite <- !Nat.div_div by lia. rewrite Nat.div_mul by lia. reflexivity. Qed.
Lemma outermost_group : forall (ch : chain) M i, 0 < M -> (forall x : nat * option (list bool), In x ch -> 0 < fst x /\ exists k, fst x = M * k) -> outermost_null ch (i / M * M) = outermost_null ch i.
Proof.
  intros ch M i HM H. apply outermost_ext. induction ch as [|[m v] t IH]; constructor; [|apply IH; intros x J; apply H; right; exact J].
  destruct (H (m, v)) as [P [k E]]; [left; reflexivity|]. cbn [fst snd] in *. unfold layer_valid. destruct v as [v|]; [|reflexivity]. rewrite E. rewrite group_div; [reflexivity|exact HM|]. destruct k; lia.
Qed.
Lemma in_combine_mult : forall (ms : list nat) (vs : list (option (list bool))) (x : nat * option (list bool)), In x (combine ms vs) -> In (fst x) ms.
Proof. intros ms vs [m v] J. exact (in_combine_l _ _ _ _ J). Qed.

(* the unraveler of a page before the layers [ks]: [M] items in a value, levels up to [c] are of the layers below *)
Record before (G : nat -> nat) (n M c : nat) (ks : list kind) (vs : list (option (list bool))) (u : unraveler) : Prop := {
  bf_rep : u_rep u = None;
  bf_rep_cmp : u_rep_cmp u = 0;
  bf_cmp : u_def_cmp u = c;
  bf_meaning : forall j, nth_error (u_meaning u) (u_layer u + j) = nth_error (map mean vs) j;
  bf_l2r : forall i, i < n -> nth_error (u_l2r u) (G i) = Some 0;
  bf_def : (exists q, u_def u = Some (map (fun j => G (j * M)) (seq 0 q)) /\ q * M = n) \/ (u_def u = None /\ existsb is_some vs = false);
  bf_level : forall i, i < n -> let x := level (S c) (combine (mults M ks) vs) i in if x =? 0 then G i <= c else G i = x }.
Lemma before_fsl : forall G n M c d ks vs u, 0 < d -> 0 < M -> (exists q, q * (M * d) = n) -> before G n M c (KFsl d :: ks) vs u ->
  exists u', decimate d u = Some u' /\ before G n (M * d) c (KItem :: ks) vs u'.
Proof.
  intros G n M c d ks vs u D HM [q Q] B. destruct B as [B1 B2 B3 B4 B5 B6 B7]. unfold decimate. rewrite B1. eexists. split; [reflexivity|]. constructor; cbn; auto.
  destruct B6 as [[q' [E Q']]|[E V]]; [left|right; rewrite E; auto]. rewrite E. exists q. cbn [option_map]. split; [|exact Q]. f_equal.
  assert (Q2 : q' = q * d) by nia. rewrite (every_spec d q); [|exact D|now rewrite map_length, seq_length|rewrite map_length, seq_length; nia].
  apply map_ext_in. intros j J. apply in_seq in J. rewrite (nth_map_seq nat (fun j => G (j * M))) by nia. f_equal. lia.
Qed.
Lemma before_step : forall G n M c ks v vs u, 0 < M -> (exists q, q * M = n) -> before G n M c (KItem :: ks) (v :: vs) u -> (forall m, In m (mults M ks) -> 0 < m) ->
  exists u' v', step1 u = Some (u', v') /\ is_some v' = is_some v /\ (match v' with Some w => length w * M = n | None => True end) /\
    (forall i, i < n -> outermost_null (combine (mults M ks) vs) i = None -> layer_valid M v' i = layer_valid M v i) /\
    before G n M (match v with Some _ => S c | None => c end) ks vs u'.
Proof.
  intros G n M c ks v vs u HM [q Q] B POS. destruct B as [B1 B2 B3 B4 B5 B6 B7]. unfold step1, u_all_valid.
  pose proof (B4 0) as M0. rewrite Nat.add_0_r in M0. rewrite M0. cbn [nth_error map omap obind].
  assert (BM : forall j, nth_error (u_meaning u) (S (u_layer u) + j) = nth_error (map mean vs) j) by (intros j; specialize (B4 (S j)); cbn [map nth_error] in B4; rewrite <- B4; f_equal; lia).
  destruct v as [v|]; cbn [mean is_some m_all_valid].
  - unfold unravel_validity. destruct B6 as [[q' [E Q']]|[E V]]; [|discriminate]. rewrite E. cbn [obind]. assert (q' = q) by nia. subst q'. rewrite B2, visible_zero.
    2:{ intros x J. apply in_map_iff in J as [j [<- J]]. apply in_seq in J. apply B5. nia. }
    cbn [omap]. eexists. eexists. split; [reflexivity|]. cbn [is_some]. split; [reflexivity|]. split; [rewrite !map_length, seq_length; exact Q|]. split.
    + intros i Hi T. cbn [layer_valid]. assert (L : i / M < q) by (apply Nat.div_lt_upper_bound; [lia|rewrite Nat.mul_comm; lia]). rewrite map_map, (nth_map_seq bool (fun j => G (j * M) <=? u_def_cmp u)) by exact L. rewrite B3.
      set (ch := combine (mults M (KItem :: ks)) (Some v :: vs)). assert (HG : i / M * M < n) by (pose proof (Nat.mul_div_le i M); lia).
      assert (CH : outermost_null ch (i / M * M) = outermost_null ch i).
      { apply outermost_group; [exact HM|]. intros x J. apply in_combine_mult in J. cbn [mults] in J. destruct J as [<-|J]; [split; [exact HM|exists 1; lia]|]. split; [apply POS; exact J|]. apply (mults_multiple ks M _ J). }
      assert (CI : outermost_null ch i = if nth (i / M) v true then None else Some 0) by (unfold ch; cbn [mults combine outermost_null]; rewrite T; reflexivity).
      specialize (B7 _ HG). cbn zeta in B7. fold ch in B7. pose proof (level_zero ch (S c) (i / M * M) ltac:(lia)) as LZ. pose proof (level_bound ch (S c) (i / M * M)) as LB. rewrite CH, CI in LZ.
      destruct (Nat.eqb_spec (level (S c) ch (i / M * M)) 0) as [Z|Z].
      * apply LZ in Z. destruct (nth (i / M) v true); [|discriminate]. apply Nat.leb_le. exact B7.
      * destruct (nth (i / M) v true); [exfalso; apply Z; apply LZ; reflexivity|]. apply Nat.leb_gt. lia.
    + constructor; cbn; auto. left. exists q. auto.
      intros i Hi. specialize (B7 i Hi). cbn [mults combine level] in B7. cbn zeta in *. destruct (Nat.eqb_spec (level (S (S c)) (combine (mults M ks) vs) i) 0) as [Z|Z].
      * destruct (nth (i / M) v true); cbn in B7; lia.
      * rewrite (proj2 (Nat.eqb_neq _ _) Z) in B7. exact B7.
  - eexists. exists None. split; [reflexivity|]. split; [reflexivity|]. split; [exact Logic.I|]. split; [reflexivity|]. constructor; cbn; auto.
Qed.
Lemma read1_before : forall ks vs G n M c u, length vs = length ks -> 0 < M -> (forall m, In m (mults M ks) -> 0 < m /\ exists q, q * m = n) -> ~ In KList ks -> (exists q, q * M = n) -> before G n M c ks vs u ->
  exists vs', read1 ks u = Some vs' /\ map is_some vs' = map is_some vs /\ Forall2 (fun m v' => match v' with Some w => length w * m = n | None => True end) (mults M ks) vs' /\
    forall i, i < n -> outermost_null (combine (mults M ks) vs') i = outermost_null (combine (mults M ks) vs) i.
Proof.
  induction ks as [|k ks IH]; intros vs G n M c u L HM D NL QM B.
  - destruct vs; [|discriminate]. exists []. repeat split; auto. constructor.
  - destruct vs as [|v vs]; [discriminate|]. cbn in L.
    assert (STEP : forall M' u0, 0 < M' -> (exists q, q * M' = n) -> (forall m, In m (mults M' ks) -> 0 < m /\ exists q, q * m = n) -> before G n M' c (KItem :: ks) (v :: vs) u0 ->
      exists vs', obind (step1 u0) (fun '(u', v) => omap (cons v) (read1 ks u')) = Some vs' /\ map is_some vs' = map is_some (v :: vs) /\ Forall2 (fun m v' => match v' with Some w => length w * m = n | None => True end) (M' :: mults M' ks) vs' /\
      forall i, i < n -> outermost_null (combine (M' :: mults M' ks) vs') i = outermost_null (combine (M' :: mults M' ks) (v :: vs)) i).
    { intros M' u0 HM' QM' D' B'. destruct (before_step G n M' c ks v vs u0 HM' QM' B') as [u' [v' [E [E1 [E2 [E3 B2]]]]]]; [intros m J; apply D'; exact J|]. rewrite E. cbn [obind].
      destruct (IH vs G n M' _ u' ltac:(lia) HM' D' ltac:(intros J; apply NL; right; exact J) QM' B2) as [vs' [R1 [R2 [R3 R4]]]]. rewrite R1. exists (v' :: vs'). split; [reflexivity|]. split; [cbn; congruence|]. split; [constructor; auto|].
      intros i Hi. cbn [combine outermost_null]. rewrite R4 by exact Hi. destruct (outermost_null (combine (mults M' ks) vs) i) eqn:O; [reflexivity|]. rewrite E3 by auto. reflexivity. }
    destruct k as [|d|]; [| |exfalso; apply NL; left; reflexivity].
    + cbn [read1 mults] in *. apply STEP; auto. intros m J. apply D. right. exact J.
    + cbn [read1 mults] in *. destruct (D (M * d)) as [Pd Qd]; [left; reflexivity|]. assert (0 < d) by (destruct d; lia).
      destruct (before_fsl G n M c d ks (v :: vs) u) as [u0 [E B0]]; auto. rewrite E. cbn [obind]. apply STEP; auto. intros m J. apply D. right. exact J.
Qed.

(* ---- several pages ---- *)
Lemma step1_flag : forall u u' v, step1 u = Some (u', v) -> u_all_valid u = Some (negb (is_some v)) /\ match v with Some w => unravel_validity u = Some (u', w) | None => u' = skip_validity u end.
Proof.
  intros u u' v H. unfold step1 in H. destruct (u_all_valid u) as [[|]|]; cbn in H; [injection H as <- <-; auto| |discriminate]. destruct (unravel_validity u) as [[u1 w]|]; [|discriminate]. cbn in H. injection H as <- <-. auto.
Qed.
Lemma unravel_all : forall us r, Forall2 (fun u x => step1 u = Some x) us r -> (forall x, In x r -> is_some (snd x) = true) ->
  sequence_opt (map unravel_validity us) = Some (map (fun x => (fst x, match snd x with Some v => v | None => [] end)) r).
Proof.
  intros us r H F. induction H as [|u [u' v] us r H1 H IH]; [reflexivity|]. cbn. pose proof (F (u', v) ltac:(left; reflexivity)) as Q. cbn in Q. destruct v as [w|]; [|discriminate]. apply step1_flag in H1 as [_ ->]. rewrite IH by (intros x J; apply F; right; exact J). reflexivity.
Qed.
Lemma c_step : forall us r b, Forall2 (fun u x => step1 u = Some x) us r -> (forall x, In x r -> is_some (snd x) = b) ->
  c_unravel_validity us = Some (map fst r, if b then if is_some (hd_error r) then Some (flat_map (fun x => match snd x with Some v => v | None => [] end) r) else None else None).
Proof.
  intros us r b H F. unfold c_unravel_validity, all_valid_layer.
  assert (A : sequence_opt (map u_all_valid us) = Some (map (fun _ => negb b) r)).
  { induction H as [|u [u' v] us r H1 H IH]; [reflexivity|]. cbn. apply step1_flag in H1 as [-> _]. rewrite IH by (intros x J; apply F; right; exact J). pose proof (F (u', v) ltac:(left; reflexivity)) as Q. cbn in Q. rewrite Q. reflexivity. }
  rewrite A. cbn [omap obind]. destruct b.
  - destruct H as [|u [u' v] us r H1 H]; [reflexivity|]. cbn [map forallb negb andb hd_error is_some].
    assert (S : sequence_opt (map unravel_validity (u :: us)) = Some (map (fun x => (fst x, match snd x with Some v => v | None => [] end)) ((u', v) :: r))).
    { apply unravel_all; [constructor; auto|exact F]. }
    cbn [map] in S. cbn [map]. rewrite S. cbn [omap]. f_equal. f_equal; [cbn; f_equal; rewrite map_map; reflexivity|]. f_equal. cbn. f_equal. clear. induction r as [|x r IH]; [reflexivity|]. cbn. rewrite IH. reflexivity.
  - assert (E : forallb (fun b : bool => b) (map (fun _ : unraveler * option (list bool) => negb false) r) = true) by (clear; induction r; [reflexivity|exact IHr]). rewrite E. f_equal. f_equal. clear A E. induction H as [|u [u' v] us r H1 H IH]; [reflexivity|]. cbn. pose proof (F (u', v) ltac:(left; reflexivity)) as Q. cbn in Q. destruct v; [discriminate|]. apply step1_flag in H1 as [_ ->]. f_equal. apply IH. intros x J. apply F. right. exact J.
Qed.
Definition piece_tail (c : piece) : piece := (fst c, tl (snd c)).
Lemma piece_layer_S : forall j c, piece_layer (S j) c = piece_layer j (piece_tail c).
Proof. intros j [n [|x l]]; [destruct j; reflexivity|reflexivity]. Qed.
Lemma joined_S : forall n cs, joined (S n) cs = join (map (piece_layer 0) cs) :: joined n (map piece_tail cs).
Proof. intros n cs. unfold joined. cbn [seq map]. f_equal. rewrite <- seq_shift, map_map. apply map_ext. intros j. f_equal. rewrite map_map. apply map_ext. intros c. apply piece_layer_S. Qed.
Lemma read_pieces : forall ks fl us (cs : list piece), length fl = length ks -> ~ In KList ks -> Forall2 (fun u c => read1 ks u = Some (map snd (snd c)) /\ map (fun l => is_some (snd l)) (snd c) = fl) us cs -> read_layers ks us = Some (map GValid (joined (length ks) cs)).
Proof.
  induction ks as [|k ks IH]; intros fl us cs L NL H; [reflexivity|]. destruct fl as [|b fl]; [discriminate|]. cbn [length] in *. rewrite joined_S. cbn [map].
  assert (STEP : forall us0, Forall2 (fun u c => obind (step1 u) (fun '(u', v) => omap (cons v) (read1 ks u')) = Some (map snd (snd c)) /\ map (fun l => is_some (snd l)) (snd c) = b :: fl) us0 cs ->
    obind (c_unravel_validity us0) (fun '(us', v) => omap (cons (GValid v)) (read_layers ks us')) = Some (GValid (join (map (piece_layer 0) cs)) :: map GValid (joined (length ks) (map piece_tail cs)))).
  { intros us0 H0. assert (R : exists r, Forall2 (fun u x => step1 u = Some x) us0 r /\ (forall x, In x r -> is_some (snd x) = b) /\
      Forall2 (fun u c => read1 ks u = Some (map snd (snd c)) /\ map (fun l => is_some (snd l)) (snd c) = fl) (map fst r) (map piece_tail cs) /\
      map snd r = map (fun c => snd (piece_layer 0 c)) cs).
    { clear H. induction H0 as [|u [n l] us0 cs [H1 H2] H IHH]; [exists []; repeat split; [constructor|intros x []|constructor]|]. destruct IHH as [r [R1 [R2 [R3 R4]]]]. cbn [snd] in *. destruct (step1 u) as [[u' v]|] eqn:E; [|discriminate]. cbn [obind] in H1. destruct (read1 ks u') as [vs|] eqn:E2; [|discriminate]. cbn in H1.
      destruct l as [|[k0 v0] l]; [discriminate|]. cbn in H1, H2. injection H1 as H1 H3. injection H2 as H2 H4. subst v.
      exists ((u', v0) :: r). split; [constructor; auto|]. split; [intros x [<-|J]; [exact H2|apply R2; exact J]|]. split; [cbn; constructor; [cbn; split; [congruence|exact H4]|exact R3]|]. cbn. f_equal. exact R4. }
    destruct R as [r [R1 [R2 [R3 R4]]]]. rewrite (c_step us0 r b R1 R2). cbn [obind]. rewrite (IH fl _ _ ltac:(lia) (fun J => NL (or_intror J)) R3). cbn [omap]. f_equal. f_equal. f_equal.
    unfold join. assert (X : existsb (fun p => is_some (snd p)) (map (piece_layer 0) cs) = b && is_some (hd_error r)).
    { clear -R2 R4. revert cs R4. induction r as [|x r IH]; intros [|c cs] R4; try discriminate; [symmetry; apply andb_false_r|]. cbn in R4. injection R4 as R4 R5. cbn [map existsb hd_error is_some]. rewrite <- R4, (R2 x) by (left; reflexivity). destruct b; [reflexivity|]. rewrite (IH (fun y J => R2 y (or_intror J)) cs R5). reflexivity. }
    rewrite X. destruct b; [|reflexivity]. cbn [andb]. destruct (is_some (hd_error r)); [|reflexivity]. f_equal. clear -R2 R4. revert cs R4. induction r as [|x r IH]; intros [|c cs] R4; try discriminate; [reflexivity|]. cbn in R4. injection R4 as R4 R5. cbn [map flat_map].
    rewrite (IH (fun y J => R2 y (or_intror J)) cs R5). f_equal. rewrite <- R4. pose proof (R2 x (or_introl eq_refl)) as Q. destruct (snd x); [reflexivity|discriminate]. }
  destruct k as [|d|]; cbn [read_layers].
  - apply STEP. exact H.
  - assert (R : exists us0, sequence_opt (map (decimate d) us) = Some us0 /\ Forall2 (fun u c => obind (step1 u) (fun '(u', v) => omap (cons v) (read1 ks u')) = Some (map snd (snd c)) /\ map (fun l => is_some (snd l)) (snd c) = b :: fl) us0 cs).
    { clear STEP. induction H as [|u c us cs [H1 H2] H [us0 [R1 R2]]]; [exists []; split; [reflexivity|constructor]|]. cbn [read1] in H1. cbn [map sequence_opt]. destruct (decimate d u) as [u0|]; [|discriminate]. rewrite R1. exists (u0 :: us0). split; [reflexivity|]. constructor; [split; [exact H1|exact H2]|exact R2]. }
    destruct R as [us0 [-> R]]. cbn [obind]. apply STEP. exact R.
  - exfalso. apply NL. left. reflexivity.
Qed.

(* ---- the theorems ---- *)
Lemma kinds_not_list : forall ks is, array_ok ks is -> ~ In KList ks.
Proof. intros ks is [_ [_ <-]] J. rewrite kinds_rev in J. apply in_map_iff in J as [[v n|v d n] [E _]]; discriminate. Qed.
Lemma levels_to_rep_zero : forall vs x, x < length (filter is_some vs) -> nth_error (levels_to_rep 0 (map mean vs)) x = Some 0.
Proof.
  induction vs as [|[v|] vs IH]; intros x H; cbn in *; [lia| |apply IH; exact H]. destruct x as [|x]; [reflexivity|]. apply IH. lia.
Qed.
Lemma nullable_combine : forall ms vs, length vs = length ms -> nullable (combine ms vs) = length (filter is_some vs).
Proof. unfold nullable. induction ms as [|m ms IH]; intros [|v vs] L; try discriminate; [reflexivity|]. cbn. injection L as L. specialize (IH vs L). destruct (is_some v); cbn; congruence. Qed.
Lemma before_page : forall ks vs n l, length vs = length ks -> levels_of ks vs n l -> before (if existsb is_some vs then level 1 (combine (mults 1 ks) vs) else fun _ => 0) n 1 0 ks vs (new_unraveler l).
Proof.
  intros ks vs n l L [L1 [L2 L3]]. constructor; cbn [new_unraveler u_rep u_rep_cmp u_def_cmp u_meaning u_layer u_l2r u_def]; auto.
  - intros j. rewrite L2. reflexivity.
  - intros i Hi. rewrite L2. destruct (existsb is_some vs); [|reflexivity]. destruct (level 1 (combine (mults 1 ks) vs) i) as [|x] eqn:E; [reflexivity|]. cbn [nth_error]. apply levels_to_rep_zero.
    pose proof (level_bound (combine (mults 1 ks) vs) 1 i) as B. rewrite (nullable_combine (mults 1 ks)) in B by (now rewrite mults_length). lia.
  - rewrite L3. destruct (existsb is_some vs); [left; exists n; split; [f_equal; apply map_ext; intros; f_equal; lia|lia]|right; auto].
  - intros i Hi. cbn zeta. destruct (existsb is_some vs) eqn:E.
    + destruct (Nat.eqb_spec (level 1 (combine (mults 1 ks) vs) i) 0); [lia|reflexivity].
    + pose proof (level_bound (combine (mults 1 ks) vs) 1 i) as B. rewrite (nullable_combine (mults 1 ks)) in B by (now rewrite mults_length).
      assert (Z : length (filter is_some vs) = 0) by (clear -E; induction vs as [|v vs IH]; [reflexivity|]; cbn in *; apply orb_false_iff in E as [-> E]; auto). destruct (Nat.eqb_spec (level 1 (combine (mults 1 ks) vs) i) 0); lia.
Qed.
(* which layers of a page have a validity *)
Definition flags (ks : list kind) (p : list (list input)) : list bool := map (fun j => existsb (fun is => is_some (nth j (validities is) None)) p) (seq 0 (length ks)).
Lemma flags_valids : forall ks p, map is_some (page_valids ks p) = flags ks p.
Proof.
  intros ks p. unfold page_valids, joined, flags. rewrite map_map. apply map_ext. intros j. unfold join. rewrite map_map.
  assert (E : existsb (fun q => is_some (snd q)) (map (fun x => piece_layer j (piece_of x)) p) = existsb (fun is => is_some (nth j (validities is) None)) p).
  { induction p as [|is p IH]; [reflexivity|]. cbn [map existsb]. rewrite IH. f_equal. unfold piece_layer, piece_of, validities. cbn [snd]. rewrite <- (map_rev in_valid is).
    change (@None (list bool)) with (snd (0, @None (list bool))) at 2. rewrite <- (map_nth snd), map_map. reflexivity. }
  rewrite E. destruct (existsb _ p); reflexivity.
Qed.
Definition whole (m n : nat) (v : option (list bool)) : Prop := match v with Some w => length w * m = n | None => True end.
Lemma page_read : forall ks p, page_ok ks p -> ks <> [] ->
  exists l vs, write_page p = Some l /\ read1 ks (new_unraveler l) = Some vs /\ map is_some vs = flags ks p /\ Forall2 (fun m v => whole m (page_items p) v) (mults 1 ks) vs /\ nulls ks vs (page_items p) = page_nulls ks p /\
    (forall m, In m (mults 1 ks) -> 0 < m /\ exists q, q * m = page_items p).
Proof.
  intros ks p PO NK. destruct (write_page_levels ks p PO NK) as [l [W LV]]. destruct PO as [NP [F P]]. exists l.
  assert (L : length (page_valids ks p) = length ks) by (unfold page_valids, joined; now rewrite map_length, seq_length).
  assert (H : Forall (piece_ok (mults 1 ks)) (map piece_of p)) by (apply Forall_map; eapply Forall_impl; [|exact F]; intros is A; apply (piece_of_ok ks is A NK)).
  assert (D : forall m, In m (mults 1 ks) -> 0 < m /\ exists q, q * m = page_items p).
  { intros m J. apply (In_nth _ _ 0) in J as [j [J <-]]. split.
    - destruct p as [|is p]; [congruence|]. inversion H as [|? ? H1 _]; subst. apply (proj2 H1 j J).
    - exists (sumn (map (fun is => fst (piece_layer j (piece_of is))) p)). unfold page_items. clear -H J. induction p as [|is p IH]; [reflexivity|]. inversion H as [|? ? H1 H2]; subst. cbn [map sumn]. rewrite Nat.mul_add_distr_r, (IH H2). f_equal. apply (proj2 H1 j J). }
  pose proof (before_page ks (page_valids ks p) (page_items p) l L LV) as BP.
  match type of BP with before ?G _ _ _ _ _ _ => destruct (read1_before ks (page_valids ks p) G (page_items p) 1 0 (new_unraveler l) L ltac:(lia) D) as [vs [R1 [R2 [R3 R4]]]] end.
  - destruct p as [|is p]; [congruence|]. inversion F; subst. eapply kinds_not_list; eauto.
  - exists (page_items p). lia.
  - exact BP.
  - exists vs. split; [exact W|]. split; [exact R1|]. split; [rewrite R2; apply flags_valids|]. split; [exact R3|]. split; [|exact D]. rewrite <- (page_nulls_joined ks p F NK). unfold nulls. apply map_ext_in. intros i J. apply in_seq in J. apply R4. lia.
Qed.
Theorem levels_exact : forall ks ps, ks <> [] -> ps <> [] -> Forall (page_ok ks) ps -> (forall p q, In p ps -> In q ps -> flags ks p = flags ks q) ->
  exists ls vs, sequence_opt (map write_page ps) = Some ls /\ read_layers ks (map new_unraveler ls) = Some (map GValid vs) /\
    length vs = length ks /\ Forall2 (fun m v => whole m (sumn (map page_items ps)) v) (mults 1 ks) vs /\
    nulls ks vs (sumn (map page_items ps)) = flat_map (page_nulls ks) ps.
Proof.
  intros ks ps NK NS F SAME. set (ms := mults 1 ks).
  assert (R : exists ls cs, sequence_opt (map write_page ps) = Some ls /\ Forall2 (fun u c => read1 ks u = Some (map snd (snd c)) /\ map (fun l => is_some (snd l)) (snd c) = match ps with p :: _ => flags ks p | [] => map (fun _ => false) ks end) (map new_unraveler ls) cs /\
    Forall (piece_ok ms) cs /\ map fst cs = map page_items ps /\ flat_map (fun c : piece => map (outermost_null (combine ms (map snd (snd c)))) (seq 0 (fst c))) cs = flat_map (page_nulls ks) ps).
  { set (fl := match ps with p :: _ => flags ks p | [] => map (fun _ => false) ks end). assert (FL : forall p, In p ps -> flags ks p = fl) by (intros p J; unfold fl; destruct ps as [|p0 ps]; [destruct J|]; apply SAME; [exact J|left; reflexivity]). clearbody fl. clear SAME NS.
    induction ps as [|p ps IH]; [exists [], []; repeat split; constructor|]. inversion F as [|? ? F1 F2]; subst. destruct IH as [ls [cs [I1 [I2 [I3 [I4 I5]]]]]]; [exact F2|intros q J; apply FL; right; exact J|].
    destruct (page_read ks p F1 NK) as [l [vs [W [R [RF [RW [RN D]]]]]]]. assert (LV : length vs = length ms) by (unfold ms; rewrite <- (map_length is_some vs), RF; unfold flags; now rewrite map_length, seq_length, mults_length).
    assert (CS : map snd (combine (map (fun m => page_items p / m) ms) vs) = vs).
    { clear -LV. generalize dependent vs. induction ms as [|m ms' IH]; intros [|v vs] L; try discriminate; [reflexivity|]. cbn. f_equal. apply IH. cbn in L. lia. }
    exists (l :: ls), ((page_items p, combine (map (fun m => page_items p / m) ms) vs) :: cs). cbn [map sequence_opt flat_map]. rewrite W, I1. split; [reflexivity|]. split; [|split; [|split]].
    - constructor; [|exact I2]. cbn [snd]. split; [rewrite CS; exact R|]. rewrite <- (map_map snd is_some), CS, RF. apply FL. left. reflexivity.
    - constructor; [|exact I3]. split; [cbn [snd]; rewrite combine_length, map_length, LV; lia|]. intros j J. unfold piece_layer. cbn [fst snd]. destruct (D (nth j ms 0)) as [P [q Q]]; [apply nth_In; exact J|].
      rewrite combine_nth by (rewrite map_length; congruence). cbn [fst].
      assert (E : nth j (map (fun m => page_items p / m) ms) 0 * nth j ms 0 = page_items p).
      { rewrite (nth_indep _ 0 ((fun m => page_items p / m) 0)) by (now rewrite map_length). rewrite (map_nth (fun m => page_items p / m)). rewrite <- Q. rewrite Nat.div_mul by lia. reflexivity. }
      split; [exact P|]. split; [exact E|]. unfold sized. cbn [fst snd]. assert (WH : whole (nth j ms 0) (page_items p) (nth j vs None)).
      { clear -RW J. fold ms in RW. revert j J. induction RW as [|m v ms' vs H RW IH]; intros j J; [cbn in J; lia|]. destruct j as [|j]; [exact H|]. cbn. apply IH. cbn in J. lia. }
      unfold whole in WH. destruct (nth j vs None) as [w|]; [|exact Logic.I]. apply (Nat.mul_cancel_r _ _ (nth j ms 0)); [lia|]. rewrite E. exact WH.
    - cbn [fst]. f_equal. exact I4.
    - cbn [fst snd]. rewrite CS, I5. f_equal. exact RN. }
  destruct R as [ls [cs [I1 [I2 [I3 [I4 I5]]]]]]. exists ls, (joined (length ks) cs). split; [exact I1|].
  assert (NC : cs <> []) by (destruct ps; [congruence|]; destruct cs; [discriminate|discriminate]).
  assert (NL : ~ In KList ks) by (destruct ps as [|p ps]; [congruence|]; inversion F as [|? ? [NP [F1 _]] _]; subst; destruct p as [|is p]; [congruence|]; inversion F1; subst; eapply kinds_not_list; eauto).
  assert (LM : length ms = length ks) by apply mults_length.
  split; [|split; [|split]].
  - refine (read_pieces ks _ _ cs _ NL I2). destruct ps as [|p ps]; [congruence|]. unfold flags. now rewrite map_length, seq_length.
  - unfold joined. now rewrite map_length, seq_length.
  - rewrite <- I4. rewrite <- LM. unfold joined. rewrite <- (seq_map_nth nat 0 ms) at 1. apply Forall2_map_map. intros j J. apply in_seq in J. unfold whole.
    destruct (join (map (piece_layer j) cs)) as [w|] eqn:Q; [|exact Logic.I]. apply join_length in Q; [|apply Forall_map; eapply Forall_impl; [|exact I3]; intros c C; apply (proj2 C j); lia].
    rewrite Q. clear -I3 J. induction I3 as [|c cs C I3 IH]; [reflexivity|]. cbn [map sumn]. rewrite Nat.mul_add_distr_r, IH. f_equal. apply (proj2 C j). lia.
  - unfold nulls. fold ms. rewrite <- I4, <- LM, (joined_nulls ms cs I3). exact I5.
Qed.
(* a single page *)
Theorem page_levels_exact : forall ks p, ks <> [] -> page_ok ks p ->
  exists l vs, write_page p = Some l /\ read_layers ks [new_unraveler l] = Some (map GValid vs) /\
    length vs = length ks /\ Forall2 (fun m v => whole m (page_items p) v) (mults 1 ks) vs /\ nulls ks vs (page_items p) = page_nulls ks p.
Proof.
  intros ks p NK P. destruct (levels_exact ks [p] NK ltac:(discriminate)) as [ls [vs [E1 [E2 [E3 [E4 E5]]]]]]; [constructor; auto|intros a b [<-|[]] [<-|[]]; reflexivity|].
  cbn in E1. destruct (write_page p) as [l|]; [|discriminate]. injection E1 as <-. exists l, vs. split; [reflexivity|]. split; [exact E2|]. split; [exact E3|]. cbn in E4, E5. rewrite Nat.add_0_r in *. rewrite app_nil_r in E5. auto.
Qed.

(* ---- instances and counterexamples ---- *)
Ltac page := split; [discriminate|split; [|cbn; lia]]; repeat (apply Forall_cons; [split; [repeat (apply Forall_cons; [split; cbn; auto; lia|]); apply Forall_nil|split; [eexists; reflexivity|reflexivity]]|]); apply Forall_nil.
(* structs of fixed size lists of items; the second array has no nulls in its structs *)
Definition ex_page1 : list (list input) :=
  [[IItem (Some [true; false; true]) 3; IFsl (Some [true; true; false]) 2 3; IItem (Some [false; true; true; false; true; true]) 6]; [IItem None 1; IFsl (Some [false]) 2 1; IItem None 2]].
Definition ex_page2 : list (list input) := [[IItem (Some [true; true]) 2; IFsl (Some [true; false]) 2 2; IItem (Some [true; false; true; true]) 4]].
Definition ex_kinds : list kind := [KItem; KFsl 2; KItem].
Example levels_met : Forall (page_ok ex_kinds) [ex_page1; ex_page2] /\ flags ex_kinds ex_page1 = flags ex_kinds ex_page2 /\
  flat_map (page_nulls ex_kinds) [ex_page1; ex_page2] = [Some 0; None; Some 2; Some 2; Some 1; Some 1; Some 1; Some 1; None; Some 0; Some 1; Some 1].
Proof. split; [repeat (apply Forall_cons; [page|]); apply Forall_nil|]. split; reflexivity. Qed.
(* a page with nulls after a page without: the reader panics *)
Theorem mixed_pages_refuted : exists ks ps ls, ks <> [] /\ Forall (page_ok ks) ps /\ sequence_opt (map write_page ps) = Some ls /\ read_layers ks (map new_unraveler ls) = None.
Proof.
  exists [KItem], [[[IItem None 2]]; [[IItem (Some [true; false]) 2]]]. eexists. split; [discriminate|]. split; [repeat (apply Forall_cons; [page|]); apply Forall_nil|]. split; reflexivity.
Qed.
(* nulls in different layers of two pages: a null struct is read as a struct whose item is null *)
Theorem lost_null_refuted : exists ks ps ls vs, ks <> [] /\ Forall (page_ok ks) ps /\ sequence_opt (map write_page ps) = Some ls /\ read_layers ks (map new_unraveler ls) = Some (map GValid vs) /\
  nth 1 (flat_map (page_nulls ks) ps) None = Some 1 /\ nth 1 (nulls ks vs (sumn (map page_items ps))) None = Some 0.
Proof.
  exists [KItem; KItem], [[[IItem (Some [true; false]) 2; IItem None 2]]; [[IItem None 1; IItem (Some [false]) 1]]]. eexists. exists [Some [true; false; false]; Some [true; true; true]]. split; [discriminate|]. split; [repeat (apply Forall_cons; [page|]); apply Forall_nil|]. split; [reflexivity|]. split; [|split].
  - reflexivity.
  - reflexivity.
  - reflexivity.
Qed.
