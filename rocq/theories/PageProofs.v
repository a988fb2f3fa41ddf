(* Reading ranges of rows from the pages of a column (C102). *)
From Coq Require Import List Arith Bool Lia.
From Verif Require Import Lib PageModel.
Import ListNotations.
Local Open Scope nat_scope.

(* ---- specification: the rows asked for, in order ---- *)
Definition wanted {A} (all : list A) (rs : list range) : list A := flat_map (fun r => slice (fst r) (snd r) all) rs.
(* ranges of rows below n, not empty, in order; a range may repeat the last row of the one before *)
Fixpoint ascending_from (e0 : nat) (rs : list range) (n : nat) : Prop :=
  match rs with
  | [] => True
  | (s, e) :: t => e0 <= s + 1 /\ s < e /\ e <= n /\ ascending_from e t n
  end.
Definition ascending (rs : list range) (n : nat) : Prop := ascending_from 0 rs n.

(* ---- slices ---- *)
Lemma slice_nil : forall A s e, @slice A s e [] = [].
Proof. intros. unfold slice. rewrite skipn_nil, firstn_nil. reflexivity. Qed.
Lemma slice_empty : forall A s e (l : list A), e <= s -> slice s e l = [].
Proof. intros. unfold slice. replace (e - s) with 0 by lia. reflexivity. Qed.
Lemma slice_length : forall A s e (l : list A), e <= length l -> length (slice s e l) = e - s.
Proof. intros. unfold slice. rewrite firstn_length, skipn_length. lia. Qed.
Lemma slice_all : forall A (l : list A), slice 0 (length l) l = l.
Proof. intros. unfold slice. rewrite Nat.sub_0_r. apply firstn_all. Qed.
Lemma slice_app_split : forall A s m e (l : list A), s <= m -> m <= e -> slice s m l ++ slice m e l = slice s e l.
Proof.
  intros A s m e l H1 H2. unfold slice. replace (e - s) with ((m - s) + (e - m)) by lia.
  replace (skipn m l) with (skipn (m - s) (skipn s l)) by (rewrite skipn_skipn'; f_equal; lia).
  generalize (skipn s l). intro k. generalize (m - s), (e - m). clear. intros n p. revert k.
  induction n as [|n IH]; intros k; [reflexivity|]. destruct k as [|x k]; [cbn; now rewrite firstn_nil|]. cbn. f_equal. apply IH.
Qed.
Lemma slice_slice : forall A s e a b (l : list A), b <= e - s -> slice a b (slice s e l) = slice (s + a) (s + b) l.
Proof.
  intros A s e a b l H. unfold slice. rewrite skipn_firstn_comm, firstn_firstn, skipn_skipn'. f_equal. lia.
Qed.
Lemma slice_app_l : forall A s e (l k : list A), e <= length l -> slice s e (l ++ k) = slice s e l.
Proof.
  intros A s e l k H. unfold slice. destruct (le_lt_dec s (length l)) as [Hs|Hs].
  - rewrite skipn_app. replace (s - length l) with 0 by lia. rewrite skipn_O, firstn_app, skipn_length. replace (e - s - (length l - s)) with 0 by lia. rewrite firstn_O. apply app_nil_r.
  - replace (e - s) with 0 by lia. reflexivity.
Qed.
Lemma slice_app_r : forall A s e (l k : list A), length l <= s -> slice s e (l ++ k) = slice (s - length l) (e - length l) k.
Proof.
  intros A s e l k H. unfold slice. rewrite skipn_app. rewrite (skipn_all2 l) by lia. cbn [app]. f_equal. lia.
Qed.
Lemma slice_nth : forall A s e (l : list A) i d, i < e - s -> nth i (slice s e l) d = nth (s + i) l d.
Proof.
  intros A s e l i d H. unfold slice. revert i H. generalize (e - s). intros n i H. revert l i H. induction s as [|s IH]; intros l i H.
  - cbn. revert l i H. induction n as [|n IHn]; intros l i H; [lia|]. destruct l as [|x l]; [destruct i; reflexivity|]. destruct i as [|i]; [reflexivity|]. cbn. apply IHn. lia.
  - destruct l as [|x l]; [cbn [skipn]; rewrite firstn_nil; destruct i; reflexivity|]. cbn [skipn]. rewrite IH by lia. reflexivity.
Qed.
Lemma slice_map : forall A B (f : A -> B) s e l, slice s e (map f l) = map f (slice s e l).
Proof. intros. unfold slice. now rewrite skipn_map, firstn_map. Qed.

(* ---- the schedule ---- *)
Definition ready (g : nat) (rs : list range) (n : nat) : Prop :=
  match rs with [] => True | (s, e) :: t => g < e /\ s < e /\ e <= n /\ ascending_from e t n end.
Definition rest_of {A} (all : list A) (g : nat) (rs : list range) : list A := flat_map (fun r => slice (Nat.max (fst r) g) (snd r) all) rs.
Lemma rest_of_later : forall A (all : list A) g rs e0 n, g < e0 -> ascending_from e0 rs n -> rest_of all g rs = wanted all rs.
Proof.
  intros A all g rs. induction rs as [|[s e] t IH]; intros e0 n Hg H; [reflexivity|]. cbn in H. destruct H as [H1 [H2 [H3 H4]]].
  unfold rest_of, wanted in *. cbn [flat_map fst snd]. rewrite (IH e n) by (auto; lia). now replace (Nat.max s g) with s by lia.
Qed.

Lemma in_page_spec : forall A (all : list A) rs g n x r,
  in_page g n rs = (x, r) -> ready g rs (length all) -> g + n <= length all -> 0 < n ->
  Forall (fun ab => fst ab < snd ab /\ snd ab <= n) x /\
  wanted (slice g (g + n) all) x ++ rest_of all (g + n) r = rest_of all g rs /\
  ready (g + n) r (length all) /\
  (match rs with (s, _) :: _ => s < g + n -> x <> [] | [] => True end).
Proof.
  intros A all. induction rs as [|[s e] t IH]; intros g n x r E R L P.
  - cbn in E. injection E as <- <-. repeat split; constructor.
  - cbn [in_page] in E. cbn [ready] in R. destruct R as [R1 [R2 [R3 R4]]]. destruct (s <? n + g) eqn:Es.
    + apply Nat.ltb_lt in Es. assert (Ee : (e <? Nat.max s g) = false) by (apply Nat.ltb_ge; lia). rewrite Ee in E.
      set (a := Nat.max s g - g) in *. set (b := Nat.min (a + (e - Nat.max s g)) n) in *.
      assert (Hab : a < b /\ b <= n /\ g + a = Nat.max s g /\ g + b = Nat.min e (g + n)) by (unfold a, b; lia). destruct Hab as [Hab [Hbn [Ha Hb]]].
      destruct (e <=? b + g) eqn:El.
      * apply Nat.leb_le in El. destruct (in_page g n t) as [x' r'] eqn:Et. injection E as <- <-.
        assert (Rt : ready g t (length all)). { destruct t as [|[s2 e2] t]; [exact Logic.I|]. cbn in R4 |- *. intuition lia. }
        destruct (IH g n x' r' Et Rt L P) as [I1 [I2 [I3 _]]]. repeat split.
        -- constructor; [cbn; lia|exact I1].
        -- unfold wanted, rest_of in *. cbn [flat_map fst snd]. rewrite <- app_assoc, I2. f_equal.
           rewrite slice_slice by lia. f_equal; lia.
        -- exact I3.
        -- intros _; discriminate.
      * apply Nat.leb_gt in El. injection E as <- <-. repeat split.
        -- constructor; [cbn; lia|constructor].
        -- unfold wanted, rest_of. cbn [flat_map fst snd]. rewrite app_nil_r, app_assoc. f_equal.
           ++ rewrite slice_slice by lia. rewrite Ha, Hb. replace (Nat.min e (g + n)) with (g + n) by lia. replace (Nat.max s (g + n)) with (g + n) by lia. apply slice_app_split; lia.
           ++ change (rest_of all (g + n) t = rest_of all g t). rewrite (rest_of_later _ _ _ _ e (length all)) by (auto; lia). symmetry. apply (rest_of_later _ _ _ _ e (length all)); [lia|auto].
        -- cbn [ready]. lia.
        -- lia.
        -- lia.
        -- auto.
        -- intros _; discriminate.
    + apply Nat.ltb_ge in Es. injection E as <- <-. repeat split.
      * constructor.
      * unfold rest_of. cbn [wanted flat_map app fst snd]. f_equal; [f_equal; lia|].
        change (rest_of all (g + n) t = rest_of all g t). rewrite (rest_of_later _ _ _ _ e (length all)) by (auto; lia). symmetry. apply (rest_of_later _ _ _ _ e (length all)); [lia|auto].
      * cbn [ready]. lia.
      * lia.
      * lia.
      * auto.
      * intros; lia.
Qed.

Lemma schedule_cons : forall A g (p : list A) t (rs rs' : list range) s e, rs = (s, e) :: rs' ->
  schedule g (p :: t) rs = if length p + g <=? s then schedule (g + length p) t rs else let '(x, r) := in_page g (length p) rs in omap (cons (p, x)) (schedule (g + length p) t r).
Proof. intros A g p t rs rs' s e ->. reflexivity. Qed.
Lemma schedule_spec : forall A (pages : list (list A)) pre rs,
  Forall (fun p => p <> []) pages -> ready (length pre) rs (length (pre ++ concat pages)) ->
  exists jobs, schedule (length pre) pages rs = Some jobs /\
    flat_map (fun pr => read_page (fst pr) (snd pr)) jobs = rest_of (pre ++ concat pages) (length pre) rs.
Proof.
  intros A. induction pages as [|p t IH]; intros pre rs NE R.
  - destruct rs as [|[s e] rs]; [exists []; split; reflexivity|]. cbn in R. rewrite app_length in R. cbn in R. lia.
  - destruct rs as [|[s e] rs]; [exists []; split; reflexivity|].
    assert (Eall : pre ++ concat (p :: t) = (pre ++ p) ++ concat t) by (cbn; apply app_assoc).
    assert (El : length (pre ++ p) = length pre + length p) by apply app_length.
    inversion NE as [|? ? NP NT]; subst.
    rewrite (schedule_cons _ _ _ _ _ rs s e eq_refl). destruct (length p + length pre <=? s) eqn:Es.
    + apply Nat.leb_le in Es. specialize (IH (pre ++ p) ((s, e) :: rs)). rewrite El, <- Eall in IH.
      assert (R' : ready (length pre + length p) ((s, e) :: rs) (length (pre ++ concat (p :: t)))) by (cbn [ready] in R |- *; intuition lia).
      destruct (IH NT R') as [jobs [E1 E2]]. exists jobs. split; [exact E1|]. rewrite E2. unfold rest_of. cbn [flat_map fst snd]. cbn [ready] in R. f_equal; [f_equal; lia|].
      change (rest_of (pre ++ concat (p :: t)) (length pre + length p) rs = rest_of (pre ++ concat (p :: t)) (length pre) rs).
      destruct R as [R1 [R2 [R3 R4]]]. assert (G1 : length pre + length p < e) by lia.
      rewrite (rest_of_later _ _ _ _ e _ G1 R4). symmetry. apply (rest_of_later _ _ _ _ e _ R1 R4).
    + apply Nat.leb_gt in Es. destruct (in_page (length pre) (length p) ((s, e) :: rs)) as [x r] eqn:Ep.
      destruct (in_page_spec _ (pre ++ concat (p :: t)) _ _ _ _ _ Ep R) as [I1 [I2 [I3 _]]]; [rewrite Eall, !app_length; lia|destruct p; [congruence|cbn; lia]|].
      specialize (IH (pre ++ p) r). rewrite El, <- Eall in IH. destruct (IH NT I3) as [jobs [E1 E2]]. rewrite E1. exists ((p, x) :: jobs). split; [reflexivity|].
      cbn [flat_map fst snd]. rewrite E2. refine (eq_trans _ I2). f_equal. unfold read_page, wanted. f_equal.
      assert (Eg : slice (length pre) (length pre + length p) (pre ++ concat (p :: t)) = p).
      { rewrite slice_app_r by lia. cbn [concat]. replace (length pre - length pre) with 0 by lia. replace (length pre + length p - length pre) with (length p) by lia. rewrite slice_app_l by lia. apply slice_all. }
      now rewrite Eg.
Qed.
Lemma concat_page_schedulers : forall A (pages : list (list A)), concat (page_schedulers pages) = concat pages.
Proof. intros A pages. unfold page_schedulers. induction pages as [|p t IH]; [reflexivity|]. cbn [filter]. destruct p as [|x p]; cbn in *; [exact IH|now rewrite IH]. Qed.

Lemma page_schedulers_ne : forall A (pages : list (list A)), Forall (fun p => p <> []) (page_schedulers pages).
Proof. intros A pages. apply Forall_forall. intros p H. unfold page_schedulers in H. apply filter_In in H. destruct H as [_ H]. now destruct p. Qed.

(* C102: ranges in order are read exactly *)
Theorem read_exact : forall A (pages : list (list A)) rs, ascending rs (length (concat pages)) -> read_column pages rs = Some (wanted (concat pages) rs).
Proof.
  intros A pages rs H. unfold read_column. rewrite <- (concat_page_schedulers A pages) in *.
  assert (R : ready (length (@nil A)) rs (length ([] ++ concat (page_schedulers pages)))).
  { destruct rs as [|[s e] t]; [exact Logic.I|]. cbn in H |- *. intuition lia. }
  destruct (schedule_spec A (page_schedulers pages) [] rs (page_schedulers_ne A pages) R) as [jobs [E1 E2]]. cbn [length app] in *. rewrite E1. cbn [omap]. f_equal. rewrite E2.
  unfold rest_of, wanted. apply flat_map_ext. intros [s e]. cbn. now rewrite Nat.max_0_r.
Qed.
Lemma take_wanted : forall A (l : list A) d idx, Forall (fun i => i < length l) idx -> wanted l (map (fun i => (i, S i)) idx) = map (fun i => nth i l d) idx.
Proof.
  intros A l d idx H. induction H as [|i t Hi H IH]; [reflexivity|]. unfold wanted in *. cbn [map flat_map fst snd]. rewrite IH.
  assert (L : length (slice i (S i) l) = 1) by (rewrite slice_length; lia). destruct (slice i (S i) l) as [|x [|]] eqn:E; try discriminate. cbn. f_equal.
  pose proof (slice_nth A i (S i) l 0 d ltac:(lia)) as N. rewrite E in N. cbn in N. rewrite Nat.add_0_r in N. exact N.
Qed.
(* the rows of sorted indices, which may repeat *)
Theorem take_exact : forall A (pages : list (list A)) d idx, (forall i j, i <= j < length idx -> nth i idx 0 <= nth j idx 0) -> Forall (fun i => i < length (concat pages)) idx ->
  take_column pages idx = Some (map (fun i => nth i (concat pages) d) idx).
Proof.
  intros A pages d idx Hs Hb. unfold take_column. rewrite read_exact; [now rewrite (take_wanted _ _ d)|].
  assert (G : forall e0, (match idx with i :: _ => e0 <= i + 1 | [] => True end) -> ascending_from e0 (map (fun i => (i, S i)) idx) (length (concat pages))).
  { clear -Hs Hb. induction Hb as [|i t Hi Hb IH]; intros e0 H0; [exact Logic.I|]. cbn. split; [lia|]. split; [lia|]. split; [lia|].
    apply IH. - intros a b H. specialize (Hs (S a) (S b)). cbn in Hs. apply Hs. cbn. lia.
    - destruct t as [|j t]; [exact Logic.I|]. specialize (Hs 0 1). cbn in Hs. specialize (Hs ltac:(lia)). lia. }
  apply G. destruct idx; [exact Logic.I|lia].
Qed.
Example take_exact_met : take_column [[10; 11; 12]; []; [13; 14]] [0; 0; 2; 3; 3; 4] = Some [10; 10; 12; 13; 13; 14].
Proof. refine (take_exact _ [[10; 11; 12]; []; [13; 14]] 0 [0; 0; 2; 3; 3; 4] _ _); [|repeat constructor]. intros [|[|[|[|[|[|i]]]]]] [|[|[|[|[|[|j]]]]]] H; cbn in *; lia. Qed.

(* without the order: rows of another page are returned in place of those asked for *)
Theorem take_unsorted_refuted : exists (pages : list (list nat)) idx,
  Forall (fun i => i < length (concat pages)) idx /\ take_column pages idx <> Some (map (fun i => nth i (concat pages) 0) idx) /\
  take_column pages idx = Some [13; 13; 14].
Proof. exists [[10; 11; 12]; [13; 14]], [3; 0]. split; [repeat constructor|]. split; [vm_compute; discriminate|reflexivity]. Qed.
(* ranges that overlap by more than a row lose rows at the end of a page *)
Theorem read_overlap_refuted : exists (pages : list (list nat)) rs,
  Forall (fun r => fst r < snd r /\ snd r <= length (concat pages)) rs /\ (forall i j, i <= j < length rs -> fst (nth i rs (0, 0)) <= fst (nth j rs (0, 0))) /\
  read_column pages rs <> Some (wanted (concat pages) rs).
Proof.
  exists [[10; 11; 12]; [13; 14]], [(1, 4); (1, 4)]. split; [repeat constructor|]. split; [|vm_compute; discriminate].
  intros [|[|i]] [|[|j]] H; cbn in *; lia.
Qed.
