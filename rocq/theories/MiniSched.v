(* Scheduling and draining of chunks of the mini-block layout. *)
From Coq Require Import List Arith NArith ZArith Bool Lia.
From Verif Require Import Lib SerdeModel SerdeProofs RepDefModel FullZipModel FullZipProofs FullZipRead FullZipPage FullZipVar MiniModel MiniProofs.
Import ListNotations.
Local Open Scope nat_scope.

Section Sched.
Context (L : nat) (cs : list (list item)).
Notation split := (split L).
Notation count := (count L).
Definition inside (c : list item) : bool := match c with x :: _ => negb (st L x) | [] => false end.
Definition goes_on (b : list (list item)) : bool := match b with c :: _ => inside c | [] => false end.
(* the repetition index of chunks *)
Fixpoint blocks_of (first : nat) (l : list (list item)) : list blk :=
  match l with [] => [] | c :: t => {| k_first := first; k_starts := count c; k_pre := inside c; k_trail := goes_on t |} :: blocks_of (first + count c) t end.
(* only the last chunk may be empty *)
Fixpoint full (l : list (list item)) : Prop := match l with [] => True | c :: t => match t with [] => True | _ => c <> [] /\ full t end end.
Definition chunk (i : instr) : list item := nth (s_chunk i) cs [].
Definition avail (i : instr) : nat := Z.to_nat (s_take i + (if s_trail i then 1 else 0)).
Definition pieces (i : instr) : list (list item) := hd [] (split (chunk i)) :: firstn (avail i) (skipn (s_skip i) (tl (split (chunk i)))).
(* what instructions give: the end of a row before them, then rows *)
Fixpoint sem (is : list instr) : list (list item) := match is with [] => [[]] | i :: t => if s_trail i then join (pieces i) (sem t) else pieces i ++ tl (sem t) end.
Definition inst_ok (i : instr) : Prop :=
  s_chunk i < length cs /\ (0 <= s_take i + (if s_trail i then 1 else 0))%Z /\ s_skip i + avail i <= count (chunk i) /\ (s_pre i = Absent <-> inside (chunk i) = false).
Definition nxt (i : instr) : option nat := if s_trail i then Some (s_chunk i) else None.
Fixpoint wf (prev : option nat) (is : list instr) : Prop :=
  match is with
  | [] => prev = None
  | i :: t => (avail i = 0 -> prev <> None) /\ (forall j, prev = Some j -> s_chunk i = S j /\ s_pre i <> Absent /\ s_skip i = 0) /\ inst_ok i /\ wf (nxt i) t
  end.
Lemma pieces_length : forall i, inst_ok i -> length (tl (pieces i)) = avail i.
Proof. intros i (_ & _ & B & _). unfold pieces. cbn [tl]. rewrite firstn_length, skipn_length, tl_split_length. lia. Qed.
Lemma sem_ne : forall is, exists h t, sem is = h :: t.
Proof. destruct is as [|i t]; cbn [sem]; [eauto|]. destruct (s_trail i); unfold pieces; [unfold join|]; cbn; [destruct (firstn _ _); cbn; eauto|eauto]. Qed.
Lemma sem_eta : forall is, sem is = hd [] (sem is) :: tl (sem is).
Proof. intros is. destruct (sem_ne is) as [h [t E]]. rewrite E. reflexivity. Qed.
Lemma inside_hd : forall c, inside c = false <-> hd [] (split c) = [].
Proof. intros c. rewrite hd_split. unfold inside. destruct c as [|x c]; [tauto|]. destruct (st L x); cbn; split; congruence. Qed.

Lemma tl_join : forall x y : list (list item), x <> [] -> skipn (length (tl x)) (tl (join x y)) = tl y.
Proof.
  intros x y X. destruct x as [|h x]; [congruence|]. cbn [tl]. destruct x as [|a x]; [reflexivity|]. rewrite join_cons by discriminate. cbn [tl]. unfold join. set (z := a :: x). assert (Z : z <> []) by discriminate.
  assert (LZ : length z = length (removelast z ++ [last z [] ++ hd [] y])) by (rewrite (app_removelast_last [] Z) at 1; rewrite !app_length; reflexivity). rewrite LZ. change ((last z [] ++ hd [] y) :: tl y) with ([last z [] ++ hd [] y] ++ tl y). rewrite app_assoc. apply skip_front.
Qed.
Lemma firstn_join : forall n (x y : list (list item)), n < length x -> firstn n (join x y) = firstn n x.
Proof.
  intros n x y H. destruct x as [|h x]; [cbn in H; lia|]. set (z := h :: x) in *. assert (Z : z <> []) by discriminate. unfold join. assert (E := app_removelast_last [] Z). assert (LZ : length z = length (removelast z) + 1) by (rewrite E at 1; rewrite app_length; reflexivity).
  rewrite E at 3. rewrite !firstn_app. replace (n - length (removelast z)) with 0 by lia. reflexivity.
Qed.
Lemma skipn_join : forall n (x y : list (list item)), n < length x -> skipn n (join x y) = join (skipn n x) y.
Proof.
  induction n as [|n IH]; intros x y H; [reflexivity|]. destruct x as [|h x]; [cbn in H; lia|]. cbn [length] in H. destruct x as [|a x]; [cbn in H; lia|]. rewrite join_cons by discriminate. cbn [skipn]. apply IH. lia.
Qed.
Lemma tl_skipn : forall A n (l : list A), tl (skipn n l) = skipn (S n) l.
Proof. induction n as [|n IH]; intros l; [destruct l; reflexivity|]. destruct l as [|a l]; [reflexivity|]. cbn [skipn]. rewrite IH. reflexivity. Qed.
Lemma firstn_join_all : forall n (x y : list (list item)), x <> [] -> length x <= n -> firstn n (join x y) = join x (hd [] y :: firstn (n - length x) (tl y)).
Proof.
  intros n x y X H. unfold join. cbn [hd tl]. assert (LZ : length x = length (removelast x) + 1) by (rewrite (app_removelast_last [] X) at 1; rewrite app_length; reflexivity).
  rewrite firstn_app, firstn_all2 by lia. replace (n - length (removelast x)) with (S (n - length x)) by lia. reflexivity.
Qed.

(* ---- scheduling ---- *)
Lemma split_next : forall c b, split (concat (c :: b)) = join (split c) (split (concat b)).
Proof. intros c b. cbn [concat]. apply split_app. Qed.
Lemma goes_on_hd : forall b, full b -> goes_on b = false -> hd [] (split (concat b)) = [].
Proof.
  intros b F G. destruct b as [|c b]; [reflexivity|]. cbn [goes_on] in G. destruct c as [|x c].
  - destruct b as [|d b]; [reflexivity|]. destruct F as [F _]. congruence.
  - cbn [inside] in G. apply hd_split. cbn. destruct (st L x); [reflexivity|discriminate].
Qed.
Lemma full_tl : forall c b, full (c :: b) -> full b.
Proof. intros c b F. destruct b; [exact Logic.I|]. apply F. Qed.
Definition upto (k : nat) : nat := count (concat (firstn k cs)).
Lemma tl_join_hd : forall (g h : list item) U X, tl (join (g :: U) X) = tl (join (h :: U) X).
Proof. intros g h U X. destruct U as [|u U]; [reflexivity|]. rewrite !join_cons by discriminate. reflexivity. Qed.
Lemma tl_firstn : forall A n (l : list A), tl (firstn (S n) l) = firstn n (tl l).
Proof. intros A n l. destruct l; [cbn; now rewrite firstn_nil|reflexivity]. Qed.
Lemma skip_join_tl : forall k h (T : list (list item)) X, k <= length T -> skipn k (tl (join (h :: T) X)) = tl (join (h :: skipn k T) X).
Proof.
  intros k h T X K. rewrite <- tl_skipn || idtac. assert (E : skipn k (tl (join (h :: T) X)) = tl (skipn k (join (h :: T) X))).
  { rewrite tl_skipn. destruct (join (h :: T) X) as [|a l]; [cbn; now rewrite skipn_nil|reflexivity]. }
  rewrite E, skipn_join by (cbn; lia). assert (Q : exists g, skipn k (h :: T) = g :: skipn k T).
  { clear -K. revert h T K. induction k as [|k IH]; intros h T K; [cbn; eauto|]. destruct T as [|t T]; [cbn in K; lia|]. cbn [length] in K. change (skipn (S k) (h :: t :: T)) with (skipn k (t :: T)). change (skipn (S k) (t :: T)) with (skipn k T). apply IH. lia. }
  destruct Q as [g ->]. apply tl_join_hd.
Qed.
Lemma take_ok : forall l a f needed np skip prev, cs = a ++ l -> full l ->
  (np = true -> goes_on l = true /\ skip = 0 /\ exists j, prev = Some j /\ length a = S j) -> (np = false -> prev = None /\ (0 < needed -> skip < count (hd [] l))) -> skip + needed <= count (concat l) ->
  exists is, take_blocks (length a) (blocks_of f l) needed np skip = Some is /\ tl (sem is) = firstn needed (skipn skip (tl (split (concat l)))) /\
    (np = true -> hd [] (sem is) = hd [] (split (concat l))) /\ wf prev is /\ map s_chunk is = seq (length a) (length is) /\
    Forall (fun i => upto (s_chunk i) <= count (concat a) + skip + needed) is.
Proof.
  induction l as [|c b IH]; intros a f needed np skip prev CS FU NP NN B.
  { destruct np; [destruct (NP eq_refl) as [Q _]; discriminate|]. destruct (NN eq_refl) as [-> NN2]. cbn in B. assert (needed = 0) by lia. subst needed. exists []. cbn. repeat split; auto. }
  cbn [blocks_of take_blocks k_starts k_pre k_trail].
  destruct ((needed =? 0) && negb np) eqn:STOP.
  { apply andb_true_iff in STOP as [S1 S2]. apply Nat.eqb_eq in S1. destruct np; [discriminate|]. destruct (NN eq_refl) as [-> _]. subst needed. exists []. cbn [sem tl firstn wf map length seq]. repeat split; auto. discriminate. }
  assert (SK : skip <= count c). { destruct np; [destruct (NP eq_refl) as (_ & -> & _); lia|]. destruct (NN eq_refl) as [_ Q]. cbn [hd] in Q. cbn [negb] in STOP. rewrite andb_true_r in STOP. apply Nat.eqb_neq in STOP. specialize (Q ltac:(lia)). lia. }
  assert (FB := full_tl _ _ FU). set (n := Nat.min (count c - skip) needed). set (trail := (n =? count c - skip) && goes_on b).
  set (i0 := {| s_chunk := length a; s_pre := if inside c then if np then Take else Skip else Absent; s_skip := skip; s_take := Z.of_nat n - (if trail then 1 else 0); s_trail := trail |}).
  assert (CK : chunk i0 = c) by (unfold chunk; cbn [s_chunk i0]; rewrite CS, app_nth2, Nat.sub_diag by lia; reflexivity).
  assert (AV : avail i0 = n) by (unfold avail; cbn [s_take s_trail i0]; replace (Z.of_nat n - (if trail then 1 else 0) + (if trail then 1 else 0))%Z with (Z.of_nat n) by lia; apply Nat2Z.id).
  assert (IO : inst_ok i0).
  { unfold inst_ok. rewrite CK, AV. cbn [s_chunk s_take s_trail s_skip s_pre i0]. split; [rewrite CS, app_length; cbn; lia|]. split; [lia|]. split; [lia|]. destruct (inside c); [|tauto]. split; [destruct np; discriminate|discriminate]. }
  cbn [concat] in B. rewrite count_app in B.
  destruct (IH (a ++ [c]) (f + count c) (needed - n) trail 0 (nxt i0)) as [is (T1 & T2 & T3 & T4 & T5 & T6)].
  { rewrite CS, <- app_assoc. reflexivity. }
  { exact FB. }
  { intros TR. unfold nxt. cbn [s_trail s_chunk i0]. rewrite TR. apply andb_true_iff in TR as [_ TR]. split; [exact TR|]. split; [reflexivity|]. eexists. split; [reflexivity|]. rewrite app_length. cbn. lia. }
  { intros TR. unfold nxt. cbn [s_trail i0]. rewrite TR. split; [reflexivity|]. intros P. assert (N1 : n = count c - skip) by lia. assert (G : goes_on b = false) by (unfold trail in TR; rewrite (proj2 (Nat.eqb_eq _ _) N1) in TR; exact TR).
    destruct b as [|d b']; [cbn in B; lia|]. cbn [hd]. cbn [goes_on] in G. destruct d as [|x d]; [destruct b' as [|e b']; [cbn in B; lia|destruct FB as [FB _]; congruence]|]. cbn [inside] in G. unfold MiniProofs.count. cbn [filter]. destruct (st L x); [cbn; lia|discriminate]. }
  { lia. }
  rewrite app_length in T1. cbn [length] in T1. replace (length a + 1) with (S (length a)) in T1 by lia. rewrite T1. cbn [omap]. exists (i0 :: is). split; [reflexivity|].
  assert (UL := tl_split_length L c). assert (SE := split_eta L c). set (h := hd [] (split c)) in *. set (T := tl (split c)) in *. set (X := split (concat b)) in *.
  assert (PI : pieces i0 = h :: firstn n (skipn skip T)) by (unfold pieces; rewrite CK, AV; reflexivity).
  assert (UN : length (skipn skip T) = count c - skip) by (rewrite skipn_length; lia).
  assert (JX : split (concat (c :: b)) = join (h :: T) X) by (rewrite split_next, SE; reflexivity). rewrite JX.
  rewrite skip_join_tl by lia.
  assert (NPH : np = true -> skipn skip T = T) by (intros Q; destruct (NP Q) as (_ & -> & _); reflexivity).
  set (U := skipn skip T) in *.
  assert (MAIN : tl (sem (i0 :: is)) = firstn needed (tl (join (h :: U) X)) /\ (np = true -> hd [] (sem (i0 :: is)) = hd [] (join (h :: T) X))).
  { cbn [sem]. rewrite PI. cbn [s_trail i0]. destruct trail eqn:TR.
    - assert (TR' := TR). unfold trail in TR'. apply andb_true_iff in TR' as [TR1 TR2]. apply Nat.eqb_eq in TR1. rewrite firstn_all2 by lia.
      assert (SI : sem is = hd [] X :: firstn (needed - n) (tl X)) by (rewrite sem_eta, T2, (T3 eq_refl), skipn_O; reflexivity). rewrite SI. split.
      + rewrite <- (tl_firstn _ needed (join (h :: U) X)), firstn_join_all by (try discriminate; cbn [length]; lia). f_equal. f_equal. f_equal. f_equal. cbn [length]. lia.
      + intros Q. rewrite (NPH Q). unfold join. destruct T as [|t0 T0]; reflexivity.
    - cbn [app hd tl]. rewrite T2, skipn_O. destruct (Nat.eq_dec n (length U)) as [NU|NU].
      + assert (G : goes_on b = false) by (unfold trail in TR; rewrite (proj2 (Nat.eqb_eq n (count c - skip))) in TR by lia; exact TR). assert (HX := goes_on_hd b FB G). fold X in HX. rewrite !join_nil_hd by (auto; discriminate). cbn [app tl hd]. split; [|reflexivity].
        rewrite firstn_app, (firstn_all2 U) by lia. rewrite (@firstn_all2 _ needed U) by lia. rewrite <- NU. reflexivity.
      + assert (n < length U) by lia. assert (n = needed) by lia. rewrite H0. split.
        * rewrite Nat.sub_diag. cbn [firstn]. rewrite app_nil_r. rewrite <- tl_firstn, firstn_join by (cbn; lia). reflexivity.
        * intros Q. rewrite (NPH Q) in H. destruct T as [|t0 T0]; [cbn in H; lia|]. rewrite join_cons by discriminate. reflexivity. }
  destruct MAIN as [M1 M2]. split; [exact M1|]. split; [exact M2|]. split; [|split].
  - cbn [wf]. rewrite AV. split; [|split; [|split; [exact IO|exact T4]]].
    + intros N0 PN. destruct np; [destruct (NP eq_refl) as (_ & _ & j & Q & _); congruence|]. cbn [negb] in STOP. rewrite andb_true_r in STOP. apply Nat.eqb_neq in STOP. destruct (NN eq_refl) as [_ Q]. cbn [hd] in Q. specialize (Q ltac:(lia)). lia.
    + intros j PJ. destruct np; [|destruct (NN eq_refl) as [Q _]; congruence]. destruct (NP eq_refl) as (G & S0 & j' & Q1 & Q2). cbn [s_chunk s_pre s_skip i0]. split; [congruence|]. split; [cbn [goes_on] in G; rewrite G; discriminate|exact S0].
  - cbn [map length seq]. rewrite T5, app_length. cbn [s_chunk i0 length]. replace (length a + 1) with (S (length a)) by lia. reflexivity.
  - constructor.
    + cbn [s_chunk i0]. unfold upto. rewrite CS, firstn_app, firstn_all, Nat.sub_diag. cbn [firstn]. rewrite app_nil_r. lia.
    + destruct is as [|i1 is]; [constructor|]. assert (NX : n = count c - skip).
      { destruct (Nat.eq_dec n (count c - skip)) as [Q|Q]; [exact Q|]. exfalso. assert (needed - n = 0) by lia. assert (trail = false) by (unfold trail; rewrite (proj2 (Nat.eqb_neq _ _) Q); reflexivity). rewrite H, H0 in T1. destruct b; cbn in T1; discriminate. }
      eapply Forall_impl; [|exact T6]. intros i. rewrite concat_app, count_app. cbn [concat]. rewrite app_nil_r. cbv beta. intros Q. lia.
Qed.
Lemma upto_mono : forall j k, j <= k -> upto j <= upto k.
Proof. intros j k H. unfold upto. replace k with (j + (k - j)) by lia. rewrite <- (firstn_skipn j (firstn (j + (k - j)) cs)). rewrite firstn_firstn, Nat.min_l by lia. rewrite concat_app, count_app. lia. Qed.

(* ---- the block of the first row ---- *)
Definition clean (s : nat) : Prop := forall a c b, cs = a ++ c :: b -> count c = 0 -> count (concat a) <> s.
Lemma first_ge : forall s l f, s < f -> filter (fun b => k_first b <? s) (blocks_of f l) = [].
Proof. intros s l. induction l as [|c l IH]; intros f H; [reflexivity|]. cbn [blocks_of filter k_first]. rewrite (proj2 (Nat.ltb_ge f s)) by lia. apply IH. lia. Qed.
Lemma find_none : forall s l f i, f <= s -> s < f + count (concat l) -> find_first s i (blocks_of f l) = None ->
  exists a c b, l = a ++ c :: b /\ length (filter (fun b => k_first b <? s) (blocks_of f l)) = S (length a) /\ f + count (concat a) <= s < f + count (concat a) + count c.
Proof.
  intros s l. induction l as [|c l IH]; intros f i F S FF; [cbn in S; lia|]. cbn [blocks_of find_first k_first] in FF. destruct (Nat.eqb_spec f s) as [E|E]; [discriminate|].
  cbn [blocks_of filter k_first]. rewrite (proj2 (Nat.ltb_lt f s)) by lia. cbn [concat] in S. rewrite count_app in S. destruct (Nat.lt_ge_cases s (f + count c)) as [C|C].
  - exists [], c, l. rewrite first_ge by lia. cbn [concat length]. unfold MiniProofs.count in *. cbn. repeat split; lia.
  - destruct (IH (f + count c) (Datatypes.S i) C ltac:(lia) FF) as [a [c' [b (Q1 & Q2 & Q3)]]]. exists (c :: a), c', b. cbn [length concat app]. rewrite Q2, count_app. split; [now rewrite Q1|]. split; [reflexivity|]. lia.
Qed.
Lemma find_some : forall s l f i j, find_first s i (blocks_of f l) = Some j -> exists a c b, l = a ++ c :: b /\ j = i + length a /\ f + count (concat a) = s.
Proof.
  intros s l. induction l as [|c l IH]; intros f i j FF; [discriminate|]. cbn [blocks_of find_first k_first] in FF. destruct (Nat.eqb_spec f s) as [E|E].
  - injection FF as <-. exists [], c, l. cbn. unfold MiniProofs.count. cbn. repeat split; lia.
  - destruct (IH _ _ _ FF) as [a [c' [b (Q1 & Q2 & Q3)]]]. exists (c :: a), c', b. cbn [app length concat]. rewrite count_app. split; [now rewrite Q1|]. split; lia.
Qed.
Lemma find_ok : forall s, clean s -> s < count (concat cs) -> exists a c b, cs = a ++ c :: b /\ find_block s (blocks_of 0 cs) = Some (length a) /\ count (concat a) <= s < count (concat a) + count c.
Proof.
  intros s CL S. unfold find_block. destruct (find_first s 0 (blocks_of 0 cs)) as [j|] eqn:FF.
  - destruct (find_some _ _ _ _ _ FF) as [a [c [b (Q1 & Q2 & Q3)]]]. exists a, c, b. split; [exact Q1|]. split; [rewrite Q2; reflexivity|]. specialize (CL a c b Q1). destruct (Nat.eq_dec (count c) 0) as [Z|Z]; [specialize (CL Z)|]; lia.
  - destruct (find_none s cs 0 0 ltac:(lia) S FF) as [a [c [b (Q1 & Q2 & Q3)]]]. exists a, c, b. split; [exact Q1|]. rewrite Q2. split; [reflexivity|]. lia.
Qed.
Lemma blocks_skip : forall a c b f, skipn (length a) (blocks_of f (a ++ c :: b)) = blocks_of (f + count (concat a)) (c :: b).
Proof.
  induction a as [|x a IH]; intros c b f; [cbn [concat app length skipn]; change (count []) with 0; rewrite Nat.add_0_r; reflexivity|]. cbn [app length blocks_of skipn]. rewrite IH. cbn [concat]. rewrite count_app. rewrite Nat.add_assoc. reflexivity.
Qed.
Lemma full_app : forall a b, full (a ++ b) -> full b.
Proof. induction a as [|x a IH]; intros b F; [exact F|]. apply IH. eapply full_tl. exact F. Qed.
Definition rows : list (list item) := tl (split (concat cs)).
Lemma rows_length : length rows = count (concat cs).
Proof. apply tl_split_length. Qed.
Lemma range_ok : forall s e, full cs -> clean s -> s < e <= length rows ->
  exists is, schedule_range (blocks_of 0 cs) (s, e) = Some is /\ tl (sem is) = pick rows (s, e) /\ wf None is /\ is <> [] /\
    (exists j, map s_chunk is = seq j (length is)) /\ Forall (fun i => upto (s_chunk i) <= e) is /\ Forall (fun i => s < upto (S (s_chunk i))) is.
Proof.
  intros s e FU CL B. rewrite rows_length in B. destruct (find_ok s CL ltac:(lia)) as [a [c [b (CS & FB & SB)]]]. unfold schedule_range. cbn [fst snd]. rewrite FB. cbn [obind].
  assert (SK := blocks_skip a c b 0). rewrite <- CS in SK. cbn [Nat.add] in SK.
  assert (NE : nth_error (blocks_of 0 cs) (length a) = Some {| k_first := count (concat a); k_starts := count c; k_pre := inside c; k_trail := goes_on b |}).
  { rewrite <- (firstn_skipn (length a) (blocks_of 0 cs)). assert (LF : length (firstn (length a) (blocks_of 0 cs)) = length a).
    { assert (Q : forall l f, length (blocks_of f l) = length l) by (induction l as [|y l IH]; intros f; [reflexivity|]; cbn; now rewrite IH). rewrite firstn_length, Q, CS, app_length. cbn. lia. }
    rewrite nth_error_app2 by lia. rewrite LF, Nat.sub_diag, SK. reflexivity. }
  rewrite NE. cbn [k_first]. rewrite SK.
  destruct (take_ok (c :: b) a (count (concat a)) (e - s) false (s - count (concat a)) None CS) as [is (T1 & T2 & T3 & T4 & T5 & T6)].
  { apply (full_app a). rewrite <- CS. exact FU. }
  { discriminate. }
  { intros _. split; [reflexivity|]. cbn [hd]. lia. }
  { rewrite CS, concat_app, count_app in B. lia. }
  exists is. split; [exact T1|]. split.
  { rewrite T2. unfold pick, rows. cbn [fst snd]. f_equal. rewrite CS, concat_app, split_app.
    assert (Q := tl_join (split (concat a)) (split (concat (c :: b))) ltac:(destruct (split_ne L (concat a)) as [x [y E]]; rewrite E; discriminate)). rewrite tl_split_length in Q. rewrite <- Q, skipn_skipn'. f_equal. lia. }
  split; [exact T4|]. split.
  { intros E. rewrite E in T2. cbn in T2. apply (f_equal (@length _)) in T2. rewrite firstn_length, skipn_length, tl_split_length in T2. cbn [length] in T2. rewrite CS, concat_app, count_app in B. cbn [concat] in B. lia. }
  split; [exists (length a); exact T5|]. split; [eapply Forall_impl; [|exact T6]; cbv beta; intros; lia|].
  apply Forall_forall. intros i J. assert (IC : In (s_chunk i) (map s_chunk is)) by (apply in_map; exact J). rewrite T5 in IC. apply in_seq in IC. assert (M := upto_mono (S (length a)) (S (s_chunk i)) ltac:(lia)).
  assert (U : upto (S (length a)) = count (concat a) + count c); [|lia]. unfold upto. rewrite CS, firstn_app, firstn_all2 by lia. replace (S (length a) - length a) with 1 by lia. cbn [firstn]. rewrite concat_app, count_app. cbn [concat]. rewrite app_nil_r. reflexivity.
Qed.

(* ---- all ranges ---- *)
Fixpoint ndec (l : list nat) : Prop := match l with [] => True | x :: t => match t with [] => True | y :: _ => x <= y end /\ ndec t end.
Lemma ndec_cons : forall x l, ndec (x :: l) <-> Forall (fun y => x <= y) l /\ ndec l.
Proof.
  intros x l. revert x. induction l as [|y l IH]; intros x; [cbn; intuition|]. split.
  - intros [A B]. split; [|exact B]. constructor; [exact A|]. apply IH in B as [B _]. eapply Forall_impl; [|exact B]. cbv beta; intros; lia.
  - intros [A B]. inversion A; subst. split; [auto|exact B].
Qed.
Lemma ndec_app : forall a b, ndec a -> ndec b -> (forall x y, In x a -> In y b -> x <= y) -> ndec (a ++ b).
Proof.
  induction a as [|x a IH]; intros b A B H; [exact B|]. apply ndec_cons in A as [A1 A2]. cbn [app]. apply ndec_cons. split.
  - apply Forall_app. split; [exact A1|]. apply Forall_forall. intros y Y. apply H; [left; reflexivity|exact Y].
  - apply IH; auto. intros u v U V. apply H; [right; exact U|exact V].
Qed.
Lemma ndec_seq : forall n j, ndec (seq j n).
Proof. induction n as [|n IH]; intros j; [exact Logic.I|]. cbn [seq]. apply ndec_cons. split; [|apply IH]. apply Forall_forall. intros y Y. apply in_seq in Y. lia. Qed.
Fixpoint in_order (lo : nat) (rs : list (nat * nat)) : Prop := match rs with [] => True | r :: t => lo <= fst r /\ fst r < snd r <= length rows /\ in_order (snd r) t end.
Lemma join_app : forall x y z : list (list item), y <> [] -> join x (y ++ z) = join x y ++ z.
Proof. intros x y z Y. destruct y as [|h y]; [congruence|]. unfold join. cbn [app hd tl]. rewrite <- app_assoc. reflexivity. Qed.
Lemma sem_app : forall l1 l2 prev, wf prev l1 -> l1 <> [] -> sem (l1 ++ l2) = sem l1 ++ tl (sem l2).
Proof.
  induction l1 as [|i l1 IH]; intros l2 prev W NE; [congruence|]. destruct W as (_ & _ & IO & W). destruct l1 as [|i1 l1].
  - cbn [wf] in W. unfold nxt in W. cbn [app sem]. destruct (s_trail i); [discriminate|]. cbn [tl]. now rewrite app_nil_r.
  - assert (Q := IH l2 _ W ltac:(discriminate)). cbn [app] in *. cbn [sem] in *. destruct (sem_ne (i1 :: l1)) as [h [t E]]. cbn [sem] in E. destruct (s_trail i); rewrite Q.
    + apply join_app. rewrite E. discriminate.
    + rewrite E. cbn [app tl]. rewrite app_assoc. reflexivity.
Qed.
Lemma wf_app : forall l1 l2 prev, wf prev l1 -> wf None l2 -> wf prev (l1 ++ l2).
Proof.
  induction l1 as [|i l1 IH]; intros l2 prev W W2; [cbn in W; subst prev; exact W2|]. destruct W as (A & B & C & D). cbn [app wf]. auto.
Qed.
Lemma ranges_ok : forall rs lo, full cs -> in_order lo rs -> Forall (fun r => clean (fst r)) rs ->
  exists ls, sequence_opt (map (schedule_range (blocks_of 0 cs)) rs) = Some ls /\ tl (sem (concat ls)) = flat_map (pick rows) rs /\ wf None (concat ls) /\ (rs <> [] -> concat ls <> []) /\
    ndec (map s_chunk (concat ls)) /\ Forall (fun i => lo < upto (S (s_chunk i))) (concat ls).
Proof.
  induction rs as [|[s e] rs IH]; intros lo FU O CL; [exists []; cbn; repeat split; auto|]. destruct O as (O1 & O2 & O3). cbn [fst snd] in *. inversion CL as [|? ? C1 C2]; subst. cbn [fst] in C1.
  destruct (range_ok s e FU C1 O2) as [is (R1 & R2 & R3 & R4 & R5 & R6 & R7)]. destruct (IH e FU O3 C2) as [ls (S1 & S2 & S3 & S4 & S5 & S6)].
  exists (is :: ls). cbn [map sequence_opt concat flat_map]. rewrite R1, S1. split; [reflexivity|]. split; [|split; [|split; [|split]]].
  - rewrite (sem_app is _ None R3 R4). destruct (sem_ne is) as [h [t E]]. rewrite E in *. cbn [app tl] in *. rewrite R2, S2. reflexivity.
  - apply wf_app; auto.
  - intros _ E. apply app_eq_nil in E as [E _]. auto.
  - rewrite map_app. apply ndec_app; [destruct R5 as [j ->]; apply ndec_seq|exact S5|]. intros x y X Y. apply in_map_iff in X as [i [<- X]]. apply in_map_iff in Y as [j [<- Y]]. rewrite Forall_forall in R6, S6. specialize (R6 i X). specialize (S6 j Y). cbv beta in *. destruct (Nat.le_gt_cases (s_chunk i) (s_chunk j)) as [Q|Q]; [exact Q|]. assert (M := upto_mono (S (s_chunk j)) (s_chunk i) Q). lia.
  - apply Forall_app. split; [eapply Forall_impl; [|exact R7]|eapply Forall_impl; [|exact S6]]; cbv beta; intros; lia.
Qed.

(* ---- merging ---- *)
Lemma merge_ok : forall l x prev, wf prev (x :: l) -> sem (merge_instrs x l) = sem (x :: l) /\ wf prev (merge_instrs x l) /\ (ndec (map s_chunk (x :: l)) -> ndec (map s_chunk (merge_instrs x l))) /\
  (forall j, In j (map s_chunk (merge_instrs x l)) -> In j (map s_chunk (x :: l))) /\ exists y t, merge_instrs x l = y :: t /\ s_chunk y = s_chunk x.
Proof.
  induction l as [|y l IH]; intros x prev W; [cbn [merge_instrs]; split; [reflexivity|]; split; [exact W|]; split; [auto|]; split; [auto|]; exists x, []; auto|]. cbn [merge_instrs]. destruct ((s_chunk x =? s_chunk y) && (s_take x + Z.of_nat (s_skip x) =? Z.of_nat (s_skip y))%Z) eqn:MG.
  - apply andb_true_iff in MG as [M1 M2]. apply Nat.eqb_eq in M1. apply Z.eqb_eq in M2. destruct W as (W1 & W2 & W3 & W4). destruct W4 as (Y1 & Y2 & Y3 & Y4).
    assert (TX : s_trail x = false) by (unfold nxt in Y2; destruct (s_trail x); [|reflexivity]; destruct (Y2 _ eq_refl) as [Q _]; lia).
    unfold nxt in Y1. rewrite TX in Y1. assert (AY : 0 < avail y) by (destruct (Nat.eq_dec (avail y) 0) as [Q|Q]; [destruct (Y1 Q eq_refl)|lia]).
    set (m := {| s_chunk := s_chunk x; s_pre := s_pre x; s_skip := s_skip x; s_take := s_take x + s_take y; s_trail := s_trail x || s_trail y |}).
    assert (CX : chunk m = chunk x) by reflexivity. assert (CY : chunk y = chunk x) by (unfold chunk; rewrite M1; reflexivity).
    destruct W3 as (X1 & X2 & X3 & X4). destruct Y3 as (Z1 & Z2 & Z3 & Z4). rewrite TX in X2.
    assert (AX : avail x = Z.to_nat (s_take x)) by (unfold avail; rewrite TX, Z.add_0_r; reflexivity).
    assert (AM : avail m = avail x + avail y).
    { rewrite AX. unfold avail. cbn [s_take s_trail m]. rewrite TX. cbn [orb]. destruct (s_trail y); lia. }
    assert (SY : s_skip y = s_skip x + avail x) by lia.
    assert (IM : inst_ok m) by (unfold inst_ok; rewrite CX, AM; cbn [s_chunk s_take s_trail s_skip s_pre m]; rewrite TX; cbn [orb]; rewrite CY in Z3; repeat split; try lia; apply X4).
    assert (PM : pieces m = pieces x ++ tl (pieces y)).
    { unfold pieces. rewrite CX, CY, AM, SY. cbn [s_skip m tl app]. f_equal. set (R := tl (split (chunk x))). rewrite <- skipn_skipn'. set (V := skipn (s_skip x) R). 
      rewrite <- (firstn_skipn (avail x) (firstn (avail x + avail y) V)). rewrite firstn_firstn, Nat.min_l by lia. f_equal. rewrite skipn_firstn_comm. f_equal. lia. }
    assert (LY : tl (pieces y) <> []) by (assert (Q := pieces_length y ltac:(unfold inst_ok; auto)); intros E; rewrite E in Q; cbn in Q; lia).
    assert (WM : wf prev (m :: l)).
    { cbn [wf]. split; [rewrite AM; lia|]. split; [exact W2|]. split; [exact IM|]. unfold nxt in *. cbn [s_trail s_chunk m]. rewrite TX, M1. exact Y4. }
    destruct (IH m prev WM) as (I1 & I2 & I3 & I4 & I5). split; [|split; [exact I2|split; [|split]]].
    + rewrite I1. cbn [sem s_trail m]. rewrite TX. cbn [orb]. rewrite PM. destruct (s_trail y).
      * assert (PY : exists hy ty, pieces y = hy :: ty /\ ty <> []) by (unfold pieces in *; cbn [tl] in LY; eauto). destruct PY as [hy [ty [E NE]]]. rewrite E. cbn [tl]. rewrite join_cons by exact NE. cbn [tl]. unfold join. rewrite removelast_app, <- app_assoc by exact NE. f_equal. f_equal. f_equal.
        f_equal. clear -NE. induction (pieces x) as [|a p IHp]; [reflexivity|]. cbn [app]. destruct (p ++ ty) eqn:Q; [apply app_eq_nil in Q as [_ Q]; congruence|]. rewrite <- Q. rewrite <- IHp. rewrite Q. reflexivity.
      * assert (PY : tl (pieces y ++ tl (sem l)) = tl (pieces y) ++ tl (sem l)) by reflexivity. rewrite PY, app_assoc. reflexivity.
    + intros N. apply I3. cbn [map] in *. apply ndec_cons in N as [N1 N2]. apply ndec_cons in N2 as [N3 N4]. apply ndec_cons. cbn [s_chunk m]. split; [inversion N1; auto|exact N4].
    + intros j J. apply I4 in J. cbn [map s_chunk m] in *. destruct J as [J|J]; [left; exact J|right; right; exact J].
    + destruct I5 as [y' [t' [E1 E2]]]. exists y', t'. auto.
  - destruct W as (W1 & W2 & W3 & W4). destruct (IH y _ W4) as (I1 & I2 & I3 & I4 & I5). destruct I5 as [y' [t' [E1 E2]]]. split; [|split; [|split; [|split]]].
    + cbn [sem] in *. rewrite I1. reflexivity.
    + cbn [wf]. auto.
    + cbn [map]. intros N. apply ndec_cons in N as [N1 N2]. apply ndec_cons. split; [|apply I3; exact N2]. apply Forall_forall. intros j J. rewrite Forall_forall in N1. apply N1. apply (I4 j J).
    + intros j [J|J]; [left; exact J|right; apply I4; exact J].
    + exists x, (merge_instrs y l). auto.
Qed.
Theorem schedule_ok : forall rs, full cs -> in_order 0 rs -> rs <> [] -> Forall (fun r => clean (fst r)) rs ->
  exists is, schedule_instrs (blocks_of 0 cs) rs = Some is /\ tl (sem is) = flat_map (pick rows) rs /\ wf None is /\ ndec (map s_chunk is).
Proof.
  intros rs FU O NE CL. destruct (ranges_ok rs 0 FU O CL) as [ls (R1 & R2 & R3 & R4 & R5 & R6)]. unfold schedule_instrs. rewrite R1. cbn [obind]. destruct (1 <? length rs); [|exists (concat ls); auto].
  specialize (R4 NE). destruct (concat ls) as [|x l]; [congruence|]. destruct (merge_ok l x None R3) as (M1 & M2 & M3 & M4 & M5). exists (merge_instrs x l). rewrite M1. auto.
Qed.

(* ---- draining ---- *)
Definition state_ok (is : list instr) (need : bool) (skip : nat) : Prop :=
  match is with
  | [] => need = false /\ skip = 0
  | i :: t => (avail i = 0 -> need = true) /\ (need = true -> s_pre i <> Absent /\ skip = 0 /\ s_skip i = 0) /\ (skip < avail i \/ skip = 0) /\ inst_ok i /\ wf (nxt i) t
  end.
Lemma wf_state : forall is prev, wf prev is -> state_ok is (match prev with Some _ => true | None => false end) 0.
Proof.
  intros is prev W. destruct is as [|i t]; [cbn in W; subst prev; cbn; auto|]. destruct W as (A & B & C & D). cbn. split; [|split; [|split; [right; reflexivity|auto]]].
  - intros Z. destruct prev; [reflexivity|]. destruct (A Z eq_refl).
  - intros Q. destruct prev as [j|]; [|discriminate]. destruct (B j eq_refl) as (_ & B2 & B3). auto.
Qed.
Definition loaded (is : list instr) (chunks : list nat) : Prop := sincn chunks /\ ndec (map s_chunk is) /\ Forall (fun i => In (s_chunk i) chunks) is.
Lemma sincn_cons : forall x l, sincn (x :: l) -> sincn l /\ forall y, In y l -> x < y.
Proof. intros x l [A B]. auto. Qed.
Lemma drop_ok : forall c chunks, sincn chunks -> In c chunks -> exists chunks', drop_chunks c chunks = Some chunks' /\ sincn chunks' /\ forall x, In x chunks -> c <= x -> In x chunks'.
Proof.
  intros c chunks. induction chunks as [|x l IH]; intros S J; [destruct J|]. cbn [drop_chunks]. destruct (Nat.eqb_spec x c) as [E|E]; [exists (x :: l); auto|]. destruct J as [J|J]; [congruence|]. destruct (sincn_cons _ _ S) as [S1 S2]. destruct (IH S1 J) as [l' (Q1 & Q2 & Q3)]. exists l'. split; [exact Q1|]. split; [exact Q2|].
  intros y [<-|Y] H; [|auto]. specialize (S2 c J). lia.
Qed.
Definition row_of (d : drained) : nat := d_skip d + s_skip (d_instr d).
Definition piece_items (d : drained) : list item := chosen L (d_act d) (row_of d) (Z.to_nat (d_take d)) (chunk (d_instr d)).
Definition piece_ok (d : drained) : Prop :=
  s_chunk (d_instr d) < length cs /\ (0 <= d_take d)%Z /\ (d_act d = Absent -> hd [] (split (chunk (d_instr d))) = []) /\ (d_act d = Take -> row_of d = 0) /\ (d_act d <> Take -> 0 < Z.to_nat (d_take d)) /\ row_of d + Z.to_nat (d_take d) <= count (chunk (d_instr d)).
Lemma drain_ok : forall is chunks desired need skip, state_ok is need skip -> loaded is chunks -> skip + desired <= length (tl (sem is)) ->
  exists ds s', drain_mini is chunks desired need skip = Some (ds, s') /\ flat_map piece_items ds = (if need then hd [] (sem is) else []) ++ concat (firstn desired (skipn skip (tl (sem is)))) /\
    Forall piece_ok ds /\ state_ok (e_instrs s') false (e_skip s') /\ loaded (e_instrs s') (e_chunks s') /\ skipn (e_skip s') (tl (sem (e_instrs s'))) = skipn desired (skipn skip (tl (sem is))) /\
    e_skip s' <= length (tl (sem (e_instrs s'))) /\ (0 < desired -> ds <> []).
Proof.
  induction is as [|i t IH]; intros chunks desired need skip S LD B.
  - destruct S as [-> ->]. cbn in B. assert (desired = 0) by lia. subst desired. cbn. eexists. eexists. split; [reflexivity|]. cbn. repeat split; auto; try lia; try apply LD.
  - cbn [drain_mini]. destruct ((desired =? 0) && negb need) eqn:STOP.
    { apply andb_true_iff in STOP as [S1 S2]. apply Nat.eqb_eq in S1. destruct need; [discriminate|]. subst desired. eexists. eexists. split; [reflexivity|]. cbn [flat_map firstn concat app e_instrs e_skip e_chunks]. repeat split; auto; try lia; apply LD || apply S. }
    destruct S as (SA & SN & SK & IO & W). destruct LD as (LS & LN & LF). inversion LF as [|? ? LF1 LF2]; subst. cbn [map] in LN. apply ndec_cons in LN as [LN1 LN2].
    destruct (drop_ok _ _ LS LF1) as [ch (D1 & D2 & D3)].
    assert (IO' := IO). destruct IO' as (I1 & I2 & I3 & I4). assert (PL := pieces_length i IO).
    assert (HAS : (match s_pre i with Absent => false | _ => true end) = inside (chunk i)) by (destruct (inside (chunk i)) eqn:IN; [destruct (s_pre i) eqn:SP; auto; destruct I4 as [I4 _]; discriminate (I4 eq_refl)|rewrite (proj2 I4 eq_refl); reflexivity]).
    assert (AE : (s_take i - Z.of_nat skip + (if s_trail i then 1 else 0) = Z.of_nat (avail i) - Z.of_nat skip)%Z) by (unfold avail; rewrite Z2Nat.id by exact I2; lia).
    assert (LD' : loaded t ch) by (split; [exact D2|]; split; [exact LN2|]; apply Forall_forall; intros x X; apply D3; [rewrite Forall_forall in LF2; auto|rewrite Forall_forall in LN1; apply LN1; apply in_map; exact X]).
    assert (SKA : skip <= avail i) by lia.
    unfold drain_instr. rewrite HAS, AE. assert (NH : need && negb (inside (chunk i)) = false) by (destruct need; [|reflexivity]; destruct (SN eq_refl) as [Q _]; destruct (inside (chunk i)) eqn:IN; [reflexivity|]; destruct (Q (proj2 I4 eq_refl))). rewrite NH.
    set (act := if inside (chunk i) then if need then Take else Skip else Absent).
    assert (ACT : act = Take <-> need = true) by (subst act; destruct need, (inside (chunk i)); cbn in NH; split; congruence).
    assert (POS : act <> Take -> 0 < avail i - skip) by (intros NT; destruct need; [destruct NT; apply ACT; reflexivity|]; destruct (Nat.eq_dec (avail i) 0) as [Z|Z]; [discriminate (SA Z)|]; destruct SK; lia).
    assert (ABS : act = Absent -> hd [] (split (chunk i)) = []) by (intros Q; apply inside_hd; subst act; destruct (inside (chunk i)); [destruct need; discriminate|reflexivity]).
    assert (PC : pieces i = hd [] (split (chunk i)) :: tl (pieces i)) by reflexivity.
    assert (CHO : forall n, skip + n <= avail i -> chosen L act (skip + s_skip i) n (chunk i) = (if need then hd [] (split (chunk i)) else []) ++ concat (firstn n (skipn skip (tl (pieces i))))).
    { intros n N. unfold chosen. assert (HE : (match act with Take => hd [] (split (chunk i)) | _ => [] end) = (if need then hd [] (split (chunk i)) else [])) by (destruct need; [rewrite (proj2 ACT eq_refl); reflexivity|]; destruct act eqn:AC; [|reflexivity|reflexivity]; assert (false = true) by (apply ACT; reflexivity); discriminate). rewrite HE. f_equal. f_equal. unfold pieces. cbn [tl].
      rewrite skipn_firstn_comm, firstn_firstn, Nat.min_l by lia. rewrite skipn_skipn'. f_equal. f_equal. lia. }
    destruct (Z.leb_spec (Z.of_nat (avail i) - Z.of_nat skip) (Z.of_nat desired)) as [LE|GT].
    + rewrite D1. cbn [obind]. replace (Z.to_nat (Z.of_nat desired - (Z.of_nat (avail i) - Z.of_nat skip))) with (desired - (avail i - skip)) by lia. set (m := avail i - skip) in *.
      assert (ST : state_ok t (s_trail i) 0) by (assert (Q := wf_state t (nxt i) W); unfold nxt in Q; destruct (s_trail i); exact Q).
      set (PT := tl (pieces i)) in *. assert (PTL : length PT = avail i) by exact PL.
      (* rows after the instruction *)
      assert (SE : exists U, tl (sem (i :: t)) = U ++ tl (sem t) /\ length U = avail i /\ (need = true -> hd [] (sem (i :: t)) ++ concat U = hd [] (split (chunk i)) ++ concat PT ++ (if s_trail i then hd [] (sem t) else [])) /\ (0 < m -> concat (skipn skip U) = concat (skipn skip PT) ++ (if s_trail i then hd [] (sem t) else []))).
      { cbn [sem]. destruct (s_trail i).
        - rewrite PC. fold PT. destruct PT as [|p0 PT0] eqn:PTE.
          + exists []. cbn [join removelast last app hd tl concat]. cbn in PTL. rewrite <- PTL in *. repeat split; [intros _; rewrite !app_nil_r; reflexivity|lia].
          + rewrite join_cons by discriminate. cbn [hd tl]. set (z := p0 :: PT0) in *. exists (removelast z ++ [last z [] ++ hd [] (sem t)]). unfold join. rewrite <- app_assoc. split; [reflexivity|].
            assert (Z : z <> []) by discriminate. assert (ZE := app_removelast_last [] Z). assert (LZ : length z = length (removelast z) + 1) by (rewrite ZE at 1; rewrite app_length; reflexivity). split; [rewrite app_length; cbn [length]; lia|].
            split; [intros _; rewrite ZE at 3; rewrite !concat_app; cbn [concat]; rewrite ?app_nil_r, <- ?app_assoc; reflexivity|].
            intros MP. rewrite ZE at 3. rewrite !skipn_app, !concat_app. assert (skip - length (removelast z) = 0) by lia. rewrite H. cbn [skipn concat]. rewrite !app_nil_r, <- app_assoc. reflexivity.
        - exists PT. rewrite PC. cbn [app tl hd]. fold PT. rewrite !app_nil_r. auto. }
      destruct SE as [U (SE1 & SE2 & SE3 & SE4)].
      assert (BT : 0 + (desired - m) <= length (tl (sem t))) by (rewrite SE1, app_length in B; lia).
      destruct (IH ch (desired - m) (s_trail i) 0 ST LD' BT) as [ds [s' (R1 & R2 & R3 & R4 & R5 & R6 & R7 & R8)]]. rewrite R1. cbn [omap]. eexists. eexists. split; [reflexivity|]. cbn [flat_map].
      assert (REST : skipn skip (tl (sem (i :: t))) = skipn skip U ++ tl (sem t)) by (rewrite SE1, skipn_app; replace (skip - length U) with 0 by lia; reflexivity).
      assert (LU : length (skipn skip U) = m) by (rewrite skipn_length; lia).
      split; [|split; [|split; [exact R4|split; [exact R5|split; [|split; [exact R7|discriminate]]]]]].
      * rewrite R2. unfold piece_items, row_of. cbn [d_act d_skip d_instr d_take]. replace (Z.to_nat (Z.of_nat (avail i) - Z.of_nat skip)) with m by lia. rewrite CHO by lia. rewrite REST, firstn_app, (firstn_all2 (skipn skip U)) by lia. rewrite LU, concat_app, skipn_O. rewrite (firstn_all2 (skipn skip PT)) by (rewrite skipn_length; lia).
        destruct need.
        -- destruct (SN eq_refl) as (_ & K0 & _). rewrite K0 in *. rewrite !skipn_O in *. rewrite !app_assoc. rewrite (SE3 eq_refl). rewrite <- !app_assoc. reflexivity.
        -- cbn [app]. rewrite SE4 by (apply POS; intros Q; apply ACT in Q; discriminate). rewrite <- !app_assoc. reflexivity.
      * constructor; [|exact R3]. unfold piece_ok, row_of. cbn [d_act d_skip d_instr d_take]. split; [exact I1|]. split; [lia|]. split; [exact ABS|]. split; [intros Q; apply ACT in Q; destruct (SN Q) as (_ & Q1 & Q2); lia|]. split; [intros Q; specialize (POS Q); lia|lia].
      * rewrite R6, REST, skipn_O. rewrite skipn_app, LU, (skipn_all2 (skipn skip U)) by lia. reflexivity.
    + rewrite D1. cbn [obind]. eexists. eexists. split; [reflexivity|]. cbn [flat_map e_instrs e_skip e_chunks]. rewrite app_nil_r.
      assert (TJ : forall k, k < avail i -> firstn (S k) (sem (i :: t)) = firstn (S k) (pieces i)).
      { intros k K. cbn [sem]. destruct (s_trail i); [apply firstn_join; rewrite PC; cbn [length]; lia|]. rewrite firstn_app. replace (S k - length (pieces i)) with 0 by (rewrite PC; cbn [length]; lia). cbn [firstn]. now rewrite app_nil_r. }
      assert (SEM : sem (i :: t) = hd [] (sem (i :: t)) :: tl (sem (i :: t))) by apply sem_eta.
      assert (HDQ : hd [] (sem (i :: t)) = hd [] (split (chunk i))) by (assert (Q := TJ 0 ltac:(lia)); rewrite SEM, PC in Q; cbn [firstn] in Q; injection Q as Q; exact Q).
      assert (TLQ : firstn (skip + desired) (tl (sem (i :: t))) = firstn (skip + desired) (tl (pieces i))) by (rewrite <- !tl_firstn, TJ by lia; reflexivity).
      split; [|split; [|split; [|split; [|split; [|split]]]]].
      * unfold piece_items, row_of. cbn [d_act d_skip d_instr d_take]. rewrite Nat2Z.id, CHO by lia. rewrite HDQ. f_equal. f_equal. rewrite !firstn_skipn_comm, TLQ. reflexivity.
      * constructor; [|constructor]. unfold piece_ok, row_of. cbn [d_act d_skip d_instr d_take]. rewrite Nat2Z.id. split; [exact I1|]. split; [lia|]. split; [exact ABS|]. split; [intros Q; apply ACT in Q; destruct (SN Q) as (_ & Q1 & Q2); lia|]. split; [|lia].
        intros Q. destruct (Nat.eq_dec desired 0) as [Z|Z]; [|lia]. rewrite Z in STOP. cbn in STOP. destruct need; [destruct Q; apply ACT; reflexivity|discriminate].
      * cbn [state_ok]. split; [intros Q; lia|]. split; [discriminate|]. split; [left; lia|]. auto.
      * split; [exact D2|]. split; [cbn [map]; apply ndec_cons; auto|]. constructor; [apply D3; auto|]. apply Forall_forall; intros x X; apply D3; [rewrite Forall_forall in LF2; auto|rewrite Forall_forall in LN1; apply LN1; apply in_map; exact X].
      * rewrite skipn_skipn'. reflexivity.
      * lia.
      * discriminate.
Qed.
(* the chunks that are loaded *)
Lemma unique_spec : forall l seen, ndec l -> (forall x, In x seen -> Forall (fun y => x <= y) l) -> sincn (unique seen l) /\ (forall x, In x l -> In x seen \/ In x (unique seen l)) /\ (forall x y, In x seen -> In y (unique seen l) -> x < y).
Proof.
  induction l as [|a l IH]; intros seen N H; [cbn; repeat split; auto; intros ? ? ? []|]. apply ndec_cons in N as [N1 N2]. cbn [unique]. destruct (existsb (Nat.eqb a) seen) eqn:E.
  - apply existsb_exists in E as [b [E1 E2]]. apply Nat.eqb_eq in E2. subst b. destruct (IH seen N2) as (A & B & C); [intros x X; specialize (H x X); inversion H; auto|]. split; [exact A|]. split; [|exact C]. intros x [<-|X]; auto.
  - assert (NA : ~ In a seen) by (intros J; assert (existsb (Nat.eqb a) seen = true) by (apply existsb_exists; exists a; split; [exact J|apply Nat.eqb_refl]); congruence).
    destruct (IH (a :: seen) N2) as (A & B & C); [intros x [<-|X]; [exact N1|specialize (H x X); inversion H; auto]|].
    split; [|split].
    + cbn [sincn]. split; [|exact A]. intros y Y. apply C; [left; reflexivity|exact Y].
    + intros x [<-|X]; [right; left; reflexivity|]. destruct (B x X) as [[<-|Q]|Q]; [right; left; reflexivity|left; exact Q|right; right; exact Q].
    + intros x y X [<-|Y]; [|apply C; [right; exact X|exact Y]]. specialize (H x X). inversion H; subst. assert (x <> a) by (intros ->; auto). lia.
Qed.
Lemma loaded_all : forall is, ndec (map s_chunk is) -> loaded is (unique [] (map s_chunk is)).
Proof.
  intros is N. destruct (unique_spec (map s_chunk is) [] N) as (A & B & _); [intros ? []|]. split; [exact A|]. split; [exact N|]. apply Forall_forall. intros i J. destruct (B (s_chunk i) (in_map _ _ _ J)) as [[]|Q]. exact Q.
Qed.
End Sched.
