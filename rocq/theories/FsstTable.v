(* Every table that training can build is sound, and renumbering its symbols keeps it so. *)
From Coq Require Import List Arith NArith ZArith Bool Lia.
From Verif Require Import Lib PageModel FsstModel.
Import ListNotations.
Local Open Scope nat_scope.

Fixpoint cnt (P : nat -> bool) (n : nat) : nat := match n with 0 => 0 | S m => cnt P m + if P m then 1 else 0 end.
Lemma cnt_ext : forall P Q n, (forall i, i < n -> P i = Q i) -> cnt P n = cnt Q n.
Proof. induction n as [|n IH]; intros H; cbn [cnt]; [reflexivity|]. rewrite IH by (intros; apply H; lia). rewrite (H n) by lia. reflexivity. Qed.
Lemma cnt_mono : forall P m n, m <= n -> cnt P m <= cnt P n.
Proof. intros P m n H. induction H; [lia|]. cbn [cnt]. lia. Qed.
Lemma cnt_lt : forall P m n, m < n -> P m = true -> cnt P m < cnt P n.
Proof. intros P m n H T. pose proof (cnt_mono P (S m) n H) as M. cbn [cnt] in M. rewrite T in M. lia. Qed.
Definition sy (t : table) (i : nat) : sym := t_syms t (256 + i).
(* symbols that may be used: no longer symbol has the terminator in it *)
Definition sym_ok (term : nat) (s : sym) : Prop := 1 <= length s <= 8 /\ (2 <= length s -> ~ In (term_byte term) s).
Record good (t : table) : Prop := {
  g_n : t_n t <= 255;
  g_sym : forall i, i < t_n t -> sym_ok (t_term t) (sy t i);
  g_bytes : forall b, b < 256 -> t_bytes t b < 256 \/ exists i, i < t_n t /\ t_bytes t b = 256 + i /\ sy t i = [b];
  g_short : forall b0 b1, b0 < 256 -> t_short t b0 b1 < 256 \/ exists i, i < t_n t /\ t_short t b0 b1 = 256 + i /\ sy t i = [b0; b1];
  g_hash : forall k v c, t_hash t k = Some (v, c) -> exists i, i < t_n t /\ c = 256 + i /\ sy t i = v /\ 3 <= length v;
  g_histo : forall r, t_histo t r = cnt (fun i => length (sy t i) =? S r) (t_n t);
  g_low : forall c, c < 256 -> t_syms t c = [c]
}.
Lemma new_good : forall term, good (new_table term).
Proof. intros term. constructor; cbn [new_table t_n t_bytes t_short t_hash t_histo t_syms]; [lia|intros i H; lia|intros b H; left; lia|intros b0 b1 H; left; lia|discriminate|reflexivity|]. intros c H. apply Nat.ltb_lt in H. now rewrite H. Qed.
Lemma upd_same : forall X (f : nat -> X) k v, upd f k v k = v.
Proof. intros. unfold upd. now rewrite Nat.eqb_refl. Qed.
Lemma upd_other : forall X (f : nat -> X) k v x, x <> k -> upd f k v x = f x.
Proof. intros X f k v x H. unfold upd. apply Nat.eqb_neq in H. now rewrite H. Qed.
Lemma bump_sy : forall t s by1 sh ha i, i < t_n t -> sy (bump t s by1 sh ha) i = sy t i.
Proof. intros. unfold sy, bump. cbn [t_syms]. rewrite upd_other by lia. reflexivity. Qed.
Lemma bump_new : forall t s by1 sh ha, sy (bump t s by1 sh ha) (t_n t) = s.
Proof. intros. unfold sy, bump. cbn [t_syms]. apply upd_same. Qed.
Lemma bump_good : forall t s by1 sh ha, good t -> t_n t < 255 -> sym_ok (t_term t) s ->
  (forall b, b < 256 -> by1 b = t_bytes t b \/ (by1 b = 256 + t_n t /\ s = [b])) ->
  (forall b0 b1, b0 < 256 -> sh b0 b1 = t_short t b0 b1 \/ (sh b0 b1 = 256 + t_n t /\ s = [b0; b1])) ->
  (forall k v c, ha k = Some (v, c) -> t_hash t k = Some (v, c) \/ (v = s /\ c = 256 + t_n t /\ 3 <= length s)) -> good (bump t s by1 sh ha).
Proof.
  intros t s by1 sh ha G LT OK HB HS HH. assert (N1 : t_n (bump t s by1 sh ha) = S (t_n t)) by reflexivity. constructor; rewrite ?N1.
  - lia.
  - intros i Hi. change (t_term (bump t s by1 sh ha)) with (t_term t). destruct (Nat.eq_dec i (t_n t)) as [->|NE]; [now rewrite bump_new|]. rewrite bump_sy by lia. apply G. lia.
  - intros b B. cbn [t_bytes bump]. destruct (HB b B) as [->|[-> E]].
    + destruct (g_bytes t G b B) as [L|(i & L & E1 & E2)]; [now left|]. right. exists i. split; [lia|]. split; [exact E1|]. rewrite bump_sy by lia. exact E2.
    + right. exists (t_n t). split; [lia|]. split; [reflexivity|]. now rewrite bump_new.
  - intros b0 b1 B. cbn [t_short bump]. destruct (HS b0 b1 B) as [->|[-> E]].
    + destruct (g_short t G b0 b1 B) as [L|(i & L & E1 & E2)]; [now left|]. right. exists i. split; [lia|]. split; [exact E1|]. rewrite bump_sy by lia. exact E2.
    + right. exists (t_n t). split; [lia|]. split; [reflexivity|]. now rewrite bump_new.
  - intros k v c. cbn [t_hash bump]. intros H. destruct (HH k v c H) as [E|(-> & -> & L)].
    + destruct (g_hash t G k v c E) as (i & L & E1 & E2 & E3). exists i. split; [lia|]. split; [exact E1|]. rewrite bump_sy by lia. auto.
    + exists (t_n t). split; [lia|]. split; [reflexivity|]. rewrite bump_new. auto.
  - intros r. cbn [t_histo bump cnt]. rewrite bump_new. rewrite (cnt_ext _ (fun i => length (sy t i) =? S r)) by (intros i Hi; rewrite bump_sy by lia; reflexivity). rewrite <- (g_histo t G). destruct OK as [OK _]. unfold upd. destruct (Nat.eqb_spec r (length s - 1)) as [->|NE].
    + replace (length s =? S (length s - 1)) with true by (symmetry; apply Nat.eqb_eq; lia). lia.
    + replace (length s =? S r) with false by (symmetry; apply Nat.eqb_neq; lia). lia.
  - intros c C. unfold bump. cbn [t_syms]. rewrite upd_other by lia. now apply G.
Qed.
Section Tables.
  Variable h : list nat -> nat.
  Lemma add_good : forall t s, good t -> t_n t < 255 -> sym_ok (t_term t) s -> good (add h t s) /\ t_term (add h t s) = t_term t.
  Proof.
    intros t s G LT OK. destruct s as [|b [|b1 [|b2 s]]].
    - destruct OK as [OK _]. cbn in OK. lia.
    - split; [|reflexivity]. cbn [add]. apply bump_good; auto. intros x _. unfold upd. destruct (Nat.eqb_spec x b) as [->|]; auto.
    - split; [|reflexivity]. cbn [add]. apply bump_good; auto. intros x y _. unfold upd. destruct (Nat.eqb_spec x b) as [->|]; [|auto]. destruct (Nat.eqb_spec y b1) as [->|]; auto.
    - unfold add. destruct (t_hash t (h (firstn 3 (b :: b1 :: b2 :: s)))) eqn:E; [auto|]. split; [|reflexivity]. apply bump_good; auto. intros k v c. unfold upd. destruct (Nat.eqb_spec k (h (firstn 3 (b :: b1 :: b2 :: s)))); [|auto]. intros H. injection H as <- <-. right. repeat split. cbn [length]. lia.
  Qed.
  Lemma fill_good : forall l t, good t -> Forall (sym_ok (t_term t)) l -> good (fill h t l) /\ t_term (fill h t l) = t_term t.
  Proof.
    induction l as [|s l IH]; intros t G F; cbn [fill]; [auto|]. destruct (Nat.ltb_spec (t_n t) 255); [|auto]. apply Forall_cons_iff in F as [F0 F]. destruct (add_good t s G H F0) as [G1 T1]. destruct (IH (add h t s)) as [G2 T2]; [exact G1|rewrite T1; exact F|]. split; [exact G2|congruence].
  Qed.
  Lemma syms_ok : forall t p, good t -> p < 256 + t_n t -> sym_ok (t_term t) (t_syms t p).
  Proof.
    intros t p G L. destruct (le_lt_dec 256 p) as [B|B].
    - replace p with (256 + (p - 256)) by lia. apply (g_sym t G). lia.
    - rewrite (g_low t G) by lia. split; cbn; lia.
  Qed.
  Lemma no_term : forall term s, sym_ok term s -> first s <> term_byte term -> ~ In (term_byte term) s.
  Proof. intros term s [L N] F. destruct s as [|a [|b s]]; [intros []|cbn in *; intros [E|[]]; congruence|apply N; cbn; lia]. Qed.
  Lemma concat_ok : forall term a b, sym_ok term a -> sym_ok term b -> first a <> term_byte term -> first b <> term_byte term -> sym_ok term (concat_sym a b).
  Proof.
    intros term a b A B FA FB. unfold concat_sym. split.
    - rewrite firstn_length, app_length. destruct A, B. lia.
    - intros _ H. assert (X : In (term_byte term) (a ++ b)) by (rewrite <- (firstn_skipn 8 (a ++ b)); apply in_or_app; now left). apply in_app_or in X as [X|X]; [now apply (no_term term a) in X|now apply (no_term term b) in X].
  Qed.
  Lemma candidates_ok : forall t c1 c2 frac, good t -> Forall (sym_ok (t_term t)) (candidates t c1 c2 frac).
  Proof.
    intros t c1 c2 frac G. apply Forall_forall. intros s H. unfold candidates in H. apply in_flat_map in H as (p1 & P1 & H). apply in_seq in P1. assert (O1 : sym_ok (t_term t) (t_syms t p1)) by (apply syms_ok; [exact G|lia]).
    match type of H with In _ (if ?b then _ else _) => destruct b end; [destruct H|]. apply in_app_or in H as [H|H].
    - match type of H with In _ (if ?b then _ else _) => destruct b end; [|destruct H]. destruct H as [<-|[]]. exact O1.
    - destruct (first (t_syms t p1) =? term_byte (t_term t)) eqn:F1; [destruct H|]. cbn [orb] in H. match type of H with In _ (if ?b then _ else _) => destruct b end; [destruct H|]. apply in_flat_map in H as (p2 & P2 & H). apply in_seq in P2. assert (O2 : sym_ok (t_term t) (t_syms t p2)) by (apply syms_ok; [exact G|lia]).
      destruct (c2 p1 p2 =? 0); [destruct H|]. destruct (first (t_syms t p2) =? term_byte (t_term t)) eqn:F2; [destruct H|]. match type of H with In _ (if ?b then _ else _) => destruct b end; [|destruct H]. destruct H as [<-|[]]. apply Nat.eqb_neq in F1. apply Nat.eqb_neq in F2. now apply concat_ok.
  Qed.
  Variable order : list sym -> list sym.
  Hypothesis order_in : forall l s, In s (order l) -> In s l.
  Variable count : table -> nat -> Z * (nat -> nat) * (nat -> nat -> nat).
  Lemma make_good : forall t c1 c2 frac, good t -> good (make_table h order t c1 c2 frac) /\ t_term (make_table h order t c1 c2 frac) = t_term t.
  Proof.
    intros t c1 c2 frac G. apply (fill_good _ (clear t)); [apply new_good|]. cbn [clear new_table t_term]. apply Forall_forall. intros s H. apply order_in in H. revert s H. apply Forall_forall. now apply candidates_ok.
  Qed.
  Lemma rounds_good : forall fracs st best g, good st -> good best -> good (rounds h order count st best g fracs).
  Proof.
    induction fracs as [|f r IH]; intros st best g G1 G2; cbn [rounds]; [exact G2|]. destruct (count st f) as [[gain c1] c2]. destruct (g <=? gain)%Z; apply IH; auto; now apply make_good.
  Qed.
End Tables.

(* ---- renumbering ---- *)
Section Renumber.
  Variable t : table.
  Hypothesis G : good t.
  Let n := t_n t.
  Definition is_len (r : nat) (i : nat) : bool := length (sy t i) =? S r.
  Definition suf (i : nat) : bool := has_suffix (t_syms t) n i (sy t i).
  Definition two_suf (i : nat) : bool := is_len 1 i && suf i.
  Definition two_not (i : nat) : bool := is_len 1 i && negb (suf i).
  Definition closed (i : nat) : nat :=
    if is_len 1 i then if suf i then cnt two_suf i else rsum0 t 2 - cnt two_not i - 1 else rsum0 t (length (sy t i) - 1) + cnt (is_len (length (sy t i) - 1)) i.
  Lemma two_split : forall m, cnt two_suf m + cnt two_not m = cnt (is_len 1) m.
  Proof. induction m as [|m IH]; cbn [cnt]; [reflexivity|]. unfold two_suf at 2, two_not at 2. destruct (is_len 1 m), (suf m); cbn [andb negb]; lia. Qed.
  Lemma sum_all : forall m, m <= n -> cnt (is_len 0) m + cnt (is_len 1) m + cnt (is_len 2) m + cnt (is_len 3) m + cnt (is_len 4) m + cnt (is_len 5) m + cnt (is_len 6) m + cnt (is_len 7) m = m.
  Proof.
    induction m as [|m IH]; intros L; cbn [cnt]; [reflexivity|]. specialize (IH ltac:(lia)). destruct (g_sym t G m ltac:(fold n; lia)) as [LS _]. unfold is_len at 2 4 6 8 10 12 14 16. set (l := length (sy t m)) in *. clearbody l.
    do 9 (destruct l as [|l]; [try lia; cbn [Nat.eqb]; lia|]). lia.
  Qed.
  Lemma base_eq : forall r, t_histo t r = cnt (is_len r) n.
  Proof. intros r. apply (g_histo t G). Qed.
  (* codes are in the range of their length *)
  Definition low (r : nat) : nat := rsum0 t r.
  Definition high (r : nat) : nat := rsum0 t r + cnt (is_len r) n.
  Lemma closed_range : forall i, i < n -> low (length (sy t i) - 1) <= closed i < high (length (sy t i) - 1).
  Proof.
    intros i L. unfold closed, low, high. destruct (is_len 1 i) eqn:E.
    - unfold is_len in E. apply Nat.eqb_eq in E. rewrite E. cbn [Nat.sub rsum0]. rewrite base_eq. pose proof (two_split n) as S. destruct (suf i) eqn:F.
      + pose proof (cnt_lt two_suf i n L) as C. unfold two_suf at 1, is_len in C. rewrite E, F in C. specialize (C eq_refl). lia.
      + pose proof (cnt_lt two_not i n L) as C. unfold two_not at 1, is_len in C. rewrite E, F in C. specialize (C eq_refl). lia.
    - destruct (g_sym t G i L) as [LS _]. pose proof (cnt_lt (is_len (length (sy t i) - 1)) i n L) as C. unfold is_len at 1 in C. replace (length (sy t i) =? S (length (sy t i) - 1)) with true in C by (symmetry; apply Nat.eqb_eq; lia). specialize (C eq_refl). lia.
  Qed.
  Lemma ranges_apart : forall r s, r < 8 -> s < 8 -> r <> s -> high r <= low s \/ high s <= low r.
  Proof.
    intros r s R S NE. unfold low, high. pose proof (sum_all n ltac:(lia)) as T. do 8 (destruct r as [|r]; [do 8 (destruct s as [|s]; [cbn [rsum0]; rewrite ?base_eq; fold n; try congruence; lia|]); lia|]). lia.
  Qed.
  Lemma high_n : forall r, r < 8 -> high r <= n.
  Proof. intros r R. unfold high. pose proof (sum_all n ltac:(lia)) as T. do 8 (destruct r as [|r]; [cbn [rsum0]; rewrite ?base_eq; fold n; lia|]). lia. Qed.
  Lemma closed_lt : forall i, i < n -> closed i < n.
  Proof. intros i L. pose proof (closed_range i L). destruct (g_sym t G i L) as [LS _]. pose proof (high_n (length (sy t i) - 1) ltac:(lia)). lia. Qed.
  Lemma closed_inj : forall i k, i < n -> k < i -> closed i <> closed k.
  Proof.
    intros i k Li Lk E. pose proof (closed_range i Li) as Ri. pose proof (closed_range k ltac:(lia)) as Rk. destruct (g_sym t G i Li) as [LSi _]. destruct (g_sym t G k ltac:(fold n; lia)) as [LSk _].
    destruct (Nat.eq_dec (length (sy t i)) (length (sy t k))) as [EL|NE]; [|destruct (ranges_apart (length (sy t i) - 1) (length (sy t k) - 1)); lia].
    unfold closed in E. unfold is_len at 1 3 in E. rewrite <- EL in E. destruct (length (sy t i) =? 2) eqn:E2.
    - apply Nat.eqb_eq in E2. pose proof (two_split n) as S. cbn [rsum0] in E. rewrite base_eq in E. pose proof (cnt_mono two_suf i n ltac:(lia)). pose proof (cnt_mono two_not i n ltac:(lia)). pose proof (cnt_mono two_suf k n ltac:(lia)). pose proof (cnt_mono two_not k n ltac:(lia)).
      assert (T1 : is_len 1 i = true) by (unfold is_len; now rewrite E2). assert (T2 : is_len 1 k = true) by (unfold is_len; now rewrite <- EL, E2).
      pose proof (cnt_lt two_suf i n Li) as A1. pose proof (cnt_lt two_not i n Li) as A2. pose proof (cnt_lt two_suf k i Lk) as A3. pose proof (cnt_lt two_not k i Lk) as A4. assert (Q1 : two_suf i = suf i) by (unfold two_suf; now rewrite T1). assert (Q2 : two_not i = negb (suf i)) by (unfold two_not; now rewrite T1). assert (Q3 : two_suf k = suf k) by (unfold two_suf; now rewrite T2). assert (Q4 : two_not k = negb (suf k)) by (unfold two_not; now rewrite T2).
      rewrite Q1 in A1. rewrite Q2 in A2. rewrite Q3 in A3. rewrite Q4 in A4. destruct (suf i), (suf k); cbn [negb] in *; try specialize (A1 eq_refl); try specialize (A2 eq_refl); try specialize (A3 eq_refl); try specialize (A4 eq_refl); lia.
    - pose proof (cnt_lt (is_len (length (sy t i) - 1)) k i Lk) as C. unfold is_len at 1 in C. replace (length (sy t k) =? S (length (sy t i) - 1)) with true in C by (symmetry; apply Nat.eqb_eq; lia). specialize (C eq_refl). lia.
  Qed.
  (* the loop computes the closed form *)
  Record fin_inv (m : nat) (x : fin) : Prop := {
    v_codes : forall k, k < m -> fi_codes x k = closed k;
    v_rsum : forall r, r <> 1 -> r < 8 -> fi_rsum x r = rsum0 t r + cnt (is_len r) m;
    v_j : fi_j x = rsum0 t 2 - cnt two_not m;
    v_suf : fi_suffix x = cnt two_suf m;
    v_high : forall i, fi_syms x (256 + i) = t_syms t (256 + i);
    v_syms : forall k, k < m -> fi_syms x (closed k) = sy t k
  }.
  Lemma suffix_same : forall (f g : nat -> sym) m i s, (forall k, f (256 + k) = g (256 + k)) -> has_suffix f m i s = has_suffix g m i s.
  Proof. intros f g m i s H. unfold has_suffix. induction (seq 0 m) as [|k l IH]; [reflexivity|]. cbn [existsb]. now rewrite IH, (H k). Qed.
  Lemma fin_step_inv : forall m x, m < n -> fin_inv m x -> fin_inv (S m) (fin_step n x m).
  Proof.
    intros m x L [VC VR VJ VS VH VY]. pose proof (g_n t G) as N255. fold n in N255. assert (E1 : fi_syms x (256 + m) = sy t m) by apply VH. destruct (g_sym t G m L) as [LS _].
    (* what every branch does *)
    assert (K : forall c, c = closed m -> (forall k, k < S m -> upd (fi_codes x) m c k = closed k) /\ (forall i, upd (fi_syms x) c (sy t m) (256 + i) = t_syms t (256 + i)) /\ (forall k, k < S m -> upd (fi_syms x) c (sy t m) (closed k) = sy t k)).
    { intros c ->. pose proof (closed_lt m L) as CL. split; [|split].
      - intros k Hk. destruct (Nat.eq_dec k m) as [->|NE]; [apply upd_same|]. rewrite upd_other by exact NE. apply VC. lia.
      - intros i. rewrite upd_other by lia. apply VH.
      - intros k Hk. destruct (Nat.eq_dec k m) as [->|NE]; [apply upd_same|]. rewrite upd_other; [apply VY; lia|]. intros X. symmetry in X. apply (closed_inj m k L) in X; [exact X|lia]. }
    unfold fin_step. rewrite E1. rewrite (suffix_same (fi_syms x) (t_syms t)) by exact VH. fold (suf m). destruct (length (sy t m) =? 2) eqn:E2.
    - assert (T : is_len 1 m = true) by exact E2. assert (R1 : forall r, r <> 1 -> is_len r m = false) by (intros r Hr; unfold is_len; apply Nat.eqb_eq in E2; rewrite E2; apply Nat.eqb_neq; lia).
      destruct (suf m) eqn:F.
      + destruct (K (fi_suffix x)) as (K1 & K2 & K3). { unfold closed. rewrite T, F. exact VS. }
        constructor; cbn [fi_codes fi_rsum fi_j fi_suffix fi_syms cnt]; auto.
        * intros r H1 H2. rewrite (R1 r H1), (VR r H1 H2). lia.
        * unfold two_not at 2. rewrite T, F. cbn [andb negb]. rewrite VJ. lia.
        * unfold two_suf at 2. rewrite T, F. cbn [andb]. rewrite VS. lia.
      + destruct (K (fi_j x - 1)) as (K1 & K2 & K3). { unfold closed. rewrite T, F, VJ. reflexivity. }
        constructor; cbn [fi_codes fi_rsum fi_j fi_suffix fi_syms cnt]; auto.
        * intros r H1 H2. rewrite (R1 r H1), (VR r H1 H2). lia.
        * unfold two_not at 2. rewrite T, F. cbn [andb negb]. rewrite VJ. lia.
        * unfold two_suf at 2. rewrite T, F. cbn [andb]. rewrite VS. lia.
    - assert (T : is_len 1 m = false) by exact E2. apply Nat.eqb_neq in E2. rewrite (VR (length (sy t m) - 1)) by lia.
      destruct (K (rsum0 t (length (sy t m) - 1) + cnt (is_len (length (sy t m) - 1)) m)) as (K1 & K2 & K3). { unfold closed. now rewrite T. }
      constructor; cbn [fi_codes fi_rsum fi_j fi_suffix fi_syms cnt]; auto.
      * intros r H1 H2. unfold upd. destruct (Nat.eqb_spec r (length (sy t m) - 1)) as [->|NE]; [unfold is_len at 3; replace (length (sy t m) =? S (length (sy t m) - 1)) with true by (symmetry; apply Nat.eqb_eq; lia); lia|]. rewrite (VR r H1 H2). unfold is_len at 3. replace (length (sy t m) =? S r) with false by (symmetry; apply Nat.eqb_neq; lia). lia.
      * unfold two_not at 2. rewrite T. cbn [andb]. rewrite VJ. lia.
      * unfold two_suf at 2. rewrite T. cbn [andb]. rewrite VS. lia.
  Qed.
  Lemma renumber_inv : fin_inv n (renumber t).
  Proof.
    unfold renumber. fold n. assert (H : forall m, m <= n -> fin_inv m (fold_left (fin_step n) (seq 0 m) {| fi_codes := fun _ => 0; fi_rsum := rsum0 t; fi_j := rsum0 t 2; fi_suffix := 0; fi_syms := t_syms t |})).
    { induction m as [|m IH]; intros L; [constructor; cbn [seq fold_left fi_codes fi_rsum fi_j fi_suffix fi_syms cnt]; intros; try lia; reflexivity|]. rewrite seq_S, fold_left_app. cbn [fold_left Nat.add]. apply fin_step_inv; [lia|]. apply IH. lia. }
    now apply H.
  Qed.
End Renumber.

(* ---- finished tables ---- *)
Record good_f (f : ftable) : Prop := {
  h_n : f_n f <= 255;
  h_sym : forall c, c < f_n f -> 1 <= length (f_syms f c) <= 8;
  h_bytes : forall b, b < 256 -> f_bytes f b = ESC_CODE \/ (c_len (f_bytes f b) = 1 /\ c_code (f_bytes f b) < f_n f /\ f_syms f (c_code (f_bytes f b)) = [b]);
  h_short : forall b0 b1, b0 < 256 -> f_short f b0 b1 = f_bytes f b0 \/ (c_len (f_short f b0 b1) = 2 /\ c_code (f_short f b0 b1) < f_n f /\ f_syms f (c_code (f_short f b0 b1)) = [b0; b1] /\ ~ In (term_byte (f_term f)) [b0; b1]);
  h_hash : forall k s c, f_hash f k = Some (s, c) -> c_len c = length s /\ 3 <= length s <= 8 /\ c_code c < f_n f /\ f_syms f (c_code c) = s /\ ~ In (term_byte (f_term f)) s
}.
Lemma mod_code : forall i, i <= 255 -> (256 + i) mod 256 = i.
Proof. intros i L. rewrite <- (Nat.mul_1_l 256) at 1. rewrite Nat.add_comm, Nat.mod_add by discriminate. apply Nat.mod_small. lia. Qed.
(* every symbol keeps its bytes under its new code, and every new code has a symbol *)
Lemma onto : forall n (f : nat -> nat), (forall i, i < n -> f i < n) -> (forall i k, i < n -> k < n -> f i = f k -> i = k) -> forall c, c < n -> exists i, i < n /\ f i = c.
Proof.
  intros n f B J c L. assert (P : incl (seq 0 n) (map f (seq 0 n))).
  { apply NoDup_length_incl; [|rewrite map_length; lia|intros x H; apply in_map_iff in H as (i & <- & H); apply in_seq in H; apply in_seq; specialize (B i); lia].
    clear c L. assert (X : forall l, NoDup l -> (forall i, In i l -> i < n) -> NoDup (map f l)). { induction l as [|a l IH]; intros D H; cbn; [constructor|]. inversion D as [|x y N D']; subst. constructor; [|apply IH; [exact D'|intros i Hi; apply H; now right]]. intros Y. apply in_map_iff in Y as (k & E & K). assert (k = a) by (apply J; [apply H; now right|apply H; now left|exact E]). congruence. }
    apply X; [apply seq_NoDup|]. intros i H. apply in_seq in H. lia. }
  assert (Q : In c (map f (seq 0 n))) by (apply P, in_seq; lia). apply in_map_iff in Q as (i & E & H). apply in_seq in H. exists i. split; [lia|exact E].
Qed.
Lemma finalize_good : forall t, good t -> good_f (finalize t).
Proof.
  intros t G. pose proof (renumber_inv t G) as [VC _ _ _ _ VY]. pose proof (g_n t G) as N. 
  assert (C : forall i, i < t_n t -> c_code {| c_code := fi_codes (renumber t) ((256 + i) mod 256); c_len := 0 |} < t_n t /\ fi_syms (renumber t) (fi_codes (renumber t) ((256 + i) mod 256)) = sy t i). { intros i L. rewrite mod_code by lia. cbn [c_code]. rewrite VC by exact L. split; [now apply closed_lt|now apply VY]. }
  cbn [c_code] in C. constructor; cbn [finalize f_n f_syms f_bytes f_short f_hash f_term].
  - exact N.
  - intros c L. destruct (onto (t_n t) (closed t) (closed_lt t G)) with (c := c) as (i & Li & <-); [|exact L|].
    + intros i k Li Lk E. destruct (Nat.lt_trichotomy i k) as [X|[X|X]]; [|exact X|]; [symmetry in E; now apply closed_inj in E|now apply closed_inj in E].
    + rewrite VY by exact Li. now apply (g_sym t G).
  - intros b B. destruct (g_bytes t G b B) as [L|(i & L & E1 & E2)].
    + left. replace (256 <=? t_bytes t b) with false by (symmetry; apply Nat.leb_gt; exact L). reflexivity.
    + right. rewrite E1. replace (256 <=? 256 + i) with true by (symmetry; apply Nat.leb_le; lia). cbn [c_code c_len]. destruct (C i L) as [C1 C2]. split; [reflexivity|]. split; [exact C1|]. now rewrite C2.
  - intros b0 b1 B. destruct (g_short t G b0 b1 B) as [L|(i & L & E1 & E2)].
    + left. replace (256 <? t_short t b0 b1) with false by (symmetry; apply Nat.ltb_ge; lia). reflexivity.
    + destruct (256 <? t_short t b0 b1); [|now left]. right. rewrite E1. cbn [c_code c_len]. destruct (C i L) as [C1 C2]. split; [reflexivity|]. split; [exact C1|]. rewrite C2. split; [exact E2|]. rewrite <- E2. apply (g_sym t G i L). rewrite E2. cbn. lia.
  - intros k s c. destruct (t_hash t k) as [[v code]|] eqn:E; [|discriminate]. intros H. destruct (g_hash t G k v code E) as (i & L & -> & E2 & E3). destruct (C i L) as [C1 C2]. set (cc := fi_codes (renumber t) ((256 + i) mod 256)) in *. clearbody cc. rewrite C2, E2 in H. injection H as <- <-. cbn [c_len c_code]. destruct (g_sym t G i L) as [LS NT]. rewrite E2 in *. split; [reflexivity|]. split; [lia|]. split; [exact C1|]. split; [exact C2|]. apply NT. lia.
Qed.
Theorem build_good : forall h order count term f, (forall l s, In s (order l) -> In s l) -> build h order count term = Some f -> good_f f /\ 0 < f_n f.
Proof.
  intros h order count term f O H. unfold build in H. set (best := rounds h order count (new_table term) (new_table 256) (-32768)%Z [8; 38; 68; 98; 108; 128]) in *. assert (G : good best) by (apply rounds_good; [exact O|apply new_good|apply new_good]). destruct (t_n best =? 0) eqn:E; [discriminate H|]. injection H as <-. split; [now apply finalize_good|]. apply Nat.eqb_neq in E. cbn [finalize f_n]. lia.
Qed.
