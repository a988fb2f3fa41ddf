(* Lists of file format 2.0 are read as they were written (C103). *)
From Coq Require Import List Arith Bool Lia.
From Verif Require Import Lib PageModel PageProofs ListEncModel.
Import ListNotations.
Local Open Scope nat_scope.

(* ---- specification ---- *)
(* ranges of rows below n, not empty, in order and apart *)
Fixpoint ordered_from (e0 : nat) (rs : list range) (n : nat) : Prop :=
  match rs with [] => True | (s, e) :: t => e0 <= s /\ s < e /\ e <= n /\ ordered_from e t n end.
Definition ordered (rs : list range) (n : nat) : Prop := ordered_from 0 rs n.
(* a reader of ranges that gives the rows asked for *)
Definition exact_reader {V} (all : list V) (read : list range -> option (list V)) : Prop := forall rs, ordered rs (length all) -> read rs = Some (wanted all rs).
(* the lists of a list array: row i is null or has the values between its offsets *)
Fixpoint lists_between {V} (os : list nat) (vs : list bool) (values : list V) : list (option (list V)) :=
  match os with
  | a :: ((b :: _) as t) => (if hd true vs then Some (slice a b values) else None) :: lists_between t (tl vs) values
  | _ => []
  end.
Definition lists_of {V} (a : larr V) : list (option (list V)) := lists_between (la_offsets a) (match la_valid a with Some v => v | None => [] end) (la_values a).
Fixpoint sorted_from (a : nat) (l : list nat) : Prop := match l with [] => True | b :: t => a <= b /\ sorted_from b t end.
(* a list array of arrow *)
Definition array_ok {V} (a : larr V) : Prop :=
  match la_offsets a with [] => False | o :: t => sorted_from o t end /\ last (la_offsets a) 0 <= length (la_values a) /\
  match la_valid a with Some v => length v + 1 = length (la_offsets a) | None => True end.
(* the lists left in a decoder; its items start with those of the first list left *)
Definition dec_lists {V} (d : ldec V) : list (option (list V)) := lists_between (map (fun o => o - hd 0 (ld_offsets d)) (ld_offsets d)) (ld_valid d) (ld_items d).
Definition dec_ok {V} (d : ldec V) : Prop :=
  match ld_offsets d with
  | [] => False
  | o :: t => sorted_from o t /\ last (o :: t) 0 - o = length (ld_items d) /\ length t = length (ld_valid d)
  end.
(* reading a column of lists *)
Definition read_lists {V} (ps : list lpage) (read_items : list range -> option (list V)) (rs : list range) : option (list (option (list V))) :=
  omap (fun ds => concat (map dec_lists ds)) (load_lists ps read_items rs).

Lemma ordered_from_weak : forall rs e0 e1 n, e1 <= e0 -> ordered_from e0 rs n -> ordered_from e1 rs n.
Proof. intros [|[s e] t] e0 e1 n H O; [exact Logic.I|]. cbn in *. intuition lia. Qed.
Lemma ordered_ascending : forall rs e0 n, ordered_from e0 rs n -> ascending_from e0 rs n.
Proof. induction rs as [|[s e] t IH]; intros e0 n H; [exact Logic.I|]. cbn in *. intuition (auto; lia). Qed.

(* ---- splitting ranges by page ---- *)
Fixpoint split_page (g n : nat) (rs : list range) : list range * list range :=
  match rs with
  | [] => ([], [])
  | (s, e) :: t =>
      if g + n <=? s then ([], rs)
      else if e <=? g + n then let '(x, r) := split_page g n t in ((s - g, e - g) :: x, r)
      else ([(s - g, n)], (g + n, e) :: t)
  end.
Fixpoint is_start (g : nat) (ps : list lpage) (s : nat) : bool :=
  (s =? g) || match ps with [] => false | p :: t => is_start (g + length (lp_offsets p)) t s end.
Definition off_range (g : nat) (ps : list lpage) (r : range) : range := (if is_start g ps (fst r) then fst r else fst r - 1, snd r).
Definition off_piece (r : range) : range := (fst r - 1, snd r).
Definition req (p : lpage) (io : nat) (r : range) : lreq := {| lr_num := snd r - fst r; lr_extra := negb (fst r =? 0); lr_adj := lp_adj p; lr_items := io |}.
Fixpoint reqs (oo io : nat) (ps : list lpage) (rs : list range) : list lreq :=
  match ps with
  | [] => []
  | p :: t => let '(x, r) := split_page oo (length (lp_offsets p)) rs in map (req p io) x ++ reqs (oo + length (lp_offsets p)) (io + lp_items p) t r
  end.
Fixpoint jobs_of (g : nat) (ps : list lpage) (rs : list range) : list (list nat * list range) :=
  match ps with
  | [] => []
  | p :: t => let '(x, r) := split_page g (length (lp_offsets p)) rs in
              (match x with [] => [] | _ => [(lp_offsets p, map off_piece x)] end) ++ jobs_of (g + length (lp_offsets p)) t r
  end.
Definition rows_in (ps : list lpage) : nat := sumn (map (fun p => length (lp_offsets p)) ps).
Definition full (ps : list lpage) : Prop := Forall (fun p => 0 < length (lp_offsets p)) ps.

Lemma split_page_spec : forall rs g n m x r, split_page g n rs = (x, r) -> ordered_from g rs m ->
  ordered x n /\ ordered_from (g + n) r m /\ (forall A (all : list A), g + n <= length all -> wanted (slice g (g + n) all) x ++ wanted all r = wanted all rs).
Proof.
  assert (W : forall rs g n m x r e0, split_page g n rs = (x, r) -> ordered_from (g + e0) rs m ->
    ordered_from e0 x n /\ ordered_from (g + n) r m /\ (forall A (all : list A), g + n <= length all -> wanted (slice g (g + n) all) x ++ wanted all r = wanted all rs)).
  { induction rs as [|[s e] t IH]; intros g n m x r e0 E O.
    - cbn in E. injection E as <- <-. repeat split.
    - cbn in O. destruct O as [O1 [O2 [O3 O4]]]. cbn [split_page] in E. destruct (g + n <=? s) eqn:E1.
      + apply Nat.leb_le in E1. injection E as <- <-. repeat split. * lia. * lia. * lia. * auto.
      + apply Nat.leb_gt in E1. destruct (e <=? g + n) eqn:E2.
        * apply Nat.leb_le in E2. destruct (split_page g n t) as [x' r'] eqn:Et. injection E as <- <-.
          destruct (IH g n m x' r' (e - g) Et) as [I1 [I2 I3]]; [now replace (g + (e - g)) with e by lia|]. split; [|split].
          -- cbn. repeat split; try lia. auto.
          -- auto.
          -- intros A all L. unfold wanted in *. cbn [flat_map fst snd]. rewrite <- app_assoc, (I3 A all L). f_equal. rewrite slice_slice by lia. f_equal; lia.
        * apply Nat.leb_gt in E2. injection E as <- <-. split; [|split].
          -- cbn. repeat split; lia.
          -- cbn. repeat split; try lia. auto.
          -- intros A all L. unfold wanted. cbn [flat_map fst snd]. rewrite app_nil_r, app_assoc. f_equal. rewrite slice_slice by lia. replace (g + (s - g)) with s by lia. apply slice_app_split; lia. }
  intros rs g n m x r E O. apply (W rs g n m x r 0 E). now rewrite Nat.add_0_r.
Qed.

(* ---- (A) the requests ---- *)
Lemma is_start_later : forall ps g s, s < g -> is_start g ps s = false.
Proof.
  induction ps as [|p t IH]; intros g s H; cbn [is_start]; rewrite (proj2 (Nat.eqb_neq s g)) by lia; [reflexivity|]. cbn [orb]. apply IH. lia.
Qed.
Lemma off_range_later : forall p t g r, 0 < length (lp_offsets p) -> g + length (lp_offsets p) <= fst r -> off_range g (p :: t) r = off_range (g + length (lp_offsets p)) t r.
Proof. intros p t g [s e] H L. unfold off_range. cbn [fst snd is_start] in *. rewrite (proj2 (Nat.eqb_neq s g)) by lia. reflexivity. Qed.
Lemma off_ranges_later : forall p t g rs e0 m, 0 < length (lp_offsets p) -> ordered_from e0 rs m -> g + length (lp_offsets p) <= e0 -> map (off_range g (p :: t)) rs = map (off_range (g + length (lp_offsets p)) t) rs.
Proof.
  intros p t g rs. induction rs as [|[s e] rs IH]; intros e0 m H O L; [reflexivity|]. cbn in O. destruct O as [O1 [O2 [O3 O4]]]. cbn [map].
  rewrite off_range_later by (cbn; lia). f_equal. apply (IH e m); auto. lia.
Qed.
Lemma is_start_here : forall p t g s, g <= s < g + length (lp_offsets p) -> is_start g (p :: t) s = (s =? g).
Proof. intros p t g s H. cbn [is_start]. rewrite is_start_later by lia. apply orb_false_r. Qed.

Lemma slice_range_end : forall oo io ps s e x, e <= s -> slice_range oo io ps s e x = Some ([], (oo, io, ps)).
Proof. intros oo io [|p t] s e x H; cbn [slice_range]; now rewrite (proj2 (Nat.leb_le e s) H). Qed.
Lemma list_requests_nil : forall oo io ps, list_requests oo io ps [] = Some ([], []).
Proof. reflexivity. Qed.
Lemma list_requests_skip : forall oo io p t s e rs, oo + length (lp_offsets p) <= s ->
  list_requests oo io (p :: t) ((s, e) :: rs) = list_requests (oo + length (lp_offsets p)) (io + lp_items p) t ((s, e) :: rs).
Proof. intros. cbn [list_requests skip_pages]. now rewrite (proj2 (Nat.leb_le _ _) H). Qed.

Lemma list_requests_spec : forall ps oo io rs, full ps -> ordered_from oo rs (oo + rows_in ps) ->
  list_requests oo io ps rs = Some (reqs oo io ps rs, map (off_range oo ps) rs).
Proof.
  induction ps as [|p t IH]; intros oo io rs F O.
  - destruct rs as [|[s e] rs]; [reflexivity|]. unfold rows_in in O. cbn in O. lia.
  - inversion F as [|? ? F1 F2]; subst. set (n := length (lp_offsets p)) in *.
    assert (Er : rows_in (p :: t) = n + rows_in t) by reflexivity. rewrite Er in O. replace (oo + (n + rows_in t)) with (oo + n + rows_in t) in O by lia.
    assert (G : forall rs', ordered_from oo rs' (oo + n + rows_in t) -> forall x r, split_page oo n rs' = (x, r) ->
                list_requests oo io (p :: t) rs' = Some (map (req p io) x ++ reqs (oo + n) (io + lp_items p) t r, map (off_range oo (p :: t)) rs')).
    { clear rs O. induction rs' as [|[s e] rs IHr]; intros O x r E.
      - cbn in E. injection E as <- <-. cbn [map app list_requests]. f_equal. f_equal. pose proof (IH (oo + n) (io + lp_items p) [] F2 Logic.I) as Q. rewrite list_requests_nil in Q. injection Q as Q. now rewrite <- Q.
      - pose proof O as O'. cbn in O. destruct O as [O1 [O2 [O3 O4]]]. cbn [split_page] in E. destruct (oo + n <=? s) eqn:E1.
        + injection E as <- <-. apply Nat.leb_le in E1. rewrite list_requests_skip by (fold n; lia). fold n. rewrite IH; auto.
          * cbn [map app]. f_equal. f_equal. symmetry. apply (off_ranges_later p t oo ((s, e) :: rs) (oo + n) (oo + n + rows_in t)); auto. cbn. intuition lia.
          * cbn. intuition lia.
        + apply Nat.leb_gt in E1. cbn [list_requests skip_pages]. fold n. rewrite (proj2 (Nat.leb_gt _ _) E1). cbn [obind].
          cbn [slice_range]. rewrite (proj2 (Nat.leb_gt _ _) O2). fold n.
          assert (Eo : off_range oo (p :: t) (s, e) = (if negb (s =? oo) then s - 1 else s, e)).
          { unfold off_range. cbn [fst snd]. rewrite is_start_here by (fold n; lia). now destruct (s =? oo). }
          assert (Ex : negb (s =? oo) = negb (s - oo =? 0)).
          { destruct (Nat.eqb_spec s oo), (Nat.eqb_spec (s - oo) 0); try reflexivity; lia. }
          destruct (e <=? oo + n) eqn:E2.
          * apply Nat.leb_le in E2. destruct (split_page oo n rs) as [x' r'] eqn:Et. injection E as <- <-. cbn [obind].
            rewrite (IHr ltac:(apply (ordered_from_weak rs e oo); auto; lia) x' r' eq_refl). cbn [omap map app]. rewrite Eo. unfold req at 2. cbn [fst snd]. rewrite <- Ex.
            replace (Nat.min (oo + n) e - s) with (e - oo - (s - oo)) by lia. reflexivity.
          * apply Nat.leb_gt in E2. injection E as <- <-. cbn [omap obind].
            pose proof (IH (oo + n) (io + lp_items p) ((oo + n, e) :: rs) F2 ltac:(cbn; intuition lia)) as Q.
            destruct t as [|p2 t2]; [unfold rows_in in O3; cbn in O3; lia|]. inversion F2 as [|? ? F3 F4]; subst. revert Q. generalize (reqs (oo + n) (io + lp_items p) (p2 :: t2) ((oo + n, e) :: rs)). intros R0 Q. cbn [list_requests skip_pages] in Q.
            rewrite (proj2 (Nat.leb_gt (oo + n + length (lp_offsets p2)) (oo + n))) in Q by lia. cbn [obind] in Q. rewrite Nat.eqb_refl in Q. cbn [negb] in Q.
            destruct (slice_range (oo + n) (io + lp_items p) (p2 :: t2) (oo + n) e false) as [[qs [[o1 i1] p1]]|]; [|discriminate]. cbn [omap obind] in Q |- *.
            destruct (list_requests o1 i1 p1 rs) as [[qs' os]|]; [|discriminate]. cbn [omap] in Q |- *. injection Q as Q1 Q3 Q2. subst R0. cbn [map app]. rewrite Eo. unfold req. cbn [fst snd]. rewrite <- Ex.
            replace (Nat.min (oo + n) e - s) with (n - (s - oo)) by lia. repeat f_equal. rewrite Q2. symmetry. apply (off_ranges_later p (p2 :: t2) oo rs e (oo + n + rows_in (p2 :: t2))); auto. fold n. lia. }
    cbn [reqs]. fold n. destruct (split_page oo n rs) as [x r] eqn:E. apply (G rs O x r E).
Qed.

(* ---- (B) the pages of offsets ---- *)
Definition same_but_head (g : nat) (ps : list lpage) (rs os : list range) : Prop :=
  match rs, os with
  | [], [] => True
  | (s, e) :: t, (s', e') :: t' => e' = e /\ t' = map (off_range g ps) t /\ (if s =? g then s' <= g else (s', e') = off_range g ps (s, e))
  | _, _ => False
  end.
Lemma in_page_split : forall p t rs os g m x r, 0 < length (lp_offsets p) ->
  same_but_head g (p :: t) rs os -> ordered_from g rs m -> split_page g (length (lp_offsets p)) rs = (x, r) ->
  exists r', in_page g (length (lp_offsets p)) os = (map off_piece x, r') /\ same_but_head (g + length (lp_offsets p)) t r r'.
Proof.
  intros p t. set (n := length (lp_offsets p)). induction rs as [|[s e] rs IH]; intros os g m x r P S O E.
  - destruct os as [|[] ?]; [|now cbn in S]. cbn in E. injection E as <- <-. exists []. split; [reflexivity|exact Logic.I].
  - destruct os as [|[s' e'] os]; [now cbn in S|]. cbn [same_but_head] in S. destruct S as [-> [S2 S3]]. cbn in O. destruct O as [O1 [O2 [O3 O4]]].
    cbn [split_page] in E. cbn [in_page].
    assert (Later : e >= g + n -> os = map (off_range (g + n) t) rs). { intros L. rewrite S2. apply (off_ranges_later p t g rs e m); auto. }
    destruct (g + n <=? s) eqn:E1.
    + apply Nat.leb_le in E1. injection E as <- <-. assert (N : (s =? g) = false) by (apply Nat.eqb_neq; lia). rewrite N in S3. rewrite off_range_later in S3 by (auto; cbn; lia). fold n in S3.
      assert (L : (s' <? n + g) = false).
      { apply Nat.ltb_ge. unfold off_range in S3. cbn [fst snd] in S3. injection S3 as ->. destruct (Nat.eq_dec s (g + n)) as [->|Q]; [|destruct (is_start (g + n) t s); lia]. replace (is_start (g + n) t (g + n)) with true; [lia|]. destruct t; cbn [is_start]; now rewrite Nat.eqb_refl. }
      rewrite L. exists ((s', e) :: os). split; [reflexivity|]. cbn [same_but_head]. split; [reflexivity|]. split; [apply Later; lia|].
      destruct (Nat.eqb_spec s (g + n)) as [->|Q]; [|exact S3]. unfold off_range in S3. injection S3 as ->. cbn [fst]. destruct (is_start (g + n) t (g + n)); lia.
    + apply Nat.leb_gt in E1.
      assert (Hs : s' <= s /\ Nat.max s' g - g = s - g - 1 /\ e >= Nat.max s' g).
      { destruct (Nat.eqb_spec s g) as [->|Q]; [lia|]. unfold off_range in S3. cbn [fst snd] in S3. rewrite is_start_here in S3 by (fold n; lia). rewrite (proj2 (Nat.eqb_neq s g) Q) in S3. injection S3 as ->. lia. }
      destruct Hs as [H1 [H2 H3]].
      rewrite (proj2 (Nat.ltb_lt s' (n + g))) by lia. rewrite (proj2 (Nat.ltb_ge e (Nat.max s' g))) by lia. rewrite H2.
      assert (Hb : Nat.min (s - g - 1 + (e - Nat.max s' g)) n = Nat.min (e - g) n) by lia. rewrite Hb.
      destruct (e <=? g + n) eqn:E2.
      * apply Nat.leb_le in E2. destruct (split_page g n rs) as [x' r0] eqn:Et. injection E as <- <-.
        replace (Nat.min (e - g) n) with (e - g) by lia. rewrite (proj2 (Nat.leb_le e (e - g + g))) by lia.
        destruct (IH os g m x' r0 P) as [r' [I1 I2]]; auto.
        { rewrite S2. destruct rs as [|[s2 e2] rs]; [exact Logic.I|]. cbn in O4. cbn [map same_but_head]. split; [reflexivity|]. split; [reflexivity|]. rewrite (proj2 (Nat.eqb_neq s2 g)) by lia. unfold off_range. reflexivity. }
        { apply (ordered_from_weak rs e g); auto. lia. }
        exists r'. split; [|exact I2]. rewrite I1. reflexivity.
      * apply Nat.leb_gt in E2. injection E as <- <-. replace (Nat.min (e - g) n) with n by lia. rewrite (proj2 (Nat.leb_gt e (n + g))) by lia.
        exists ((s', e) :: os). split; [reflexivity|]. cbn [same_but_head]. split; [reflexivity|]. split; [apply Later; lia|]. rewrite Nat.eqb_refl. lia.
Qed.
Lemma schedule_jobs : forall ps g rs os, full ps -> ordered_from g rs (g + rows_in ps) -> same_but_head g ps rs os ->
  schedule g (map lp_offsets ps) os = Some (jobs_of g ps rs).
Proof.
  induction ps as [|p t IH]; intros g rs os F O S.
  - destruct rs as [|[s e] rs]; [|unfold rows_in in O; cbn in O; lia]. destruct os as [|[] ?]; [reflexivity|now cbn in S].
  - inversion F as [|? ? F1 F2]; subst. cbn [jobs_of]. set (n := length (lp_offsets p)) in *.
    assert (Er : rows_in (p :: t) = n + rows_in t) by reflexivity. rewrite Er in O. replace (g + (n + rows_in t)) with (g + n + rows_in t) in O by lia.
    destruct (split_page g n rs) as [x r] eqn:E. destruct (in_page_split p t rs os g _ x r F1 S O E) as [r' [I1 I2]]. fold n in I1, I2.
    destruct (split_page_spec rs g n _ x r E O) as [P1 [P2 _]]. specialize (IH (g + n) r r' F2 P2 I2).
    destruct rs as [|[s e] rs].
    { destruct os as [|[] ?]; [|now cbn in S]. cbn in E. injection E as <- <-. cbn in I1. injection I1 as <-. cbn [map schedule app] in IH |- *.
      destruct t; cbn [map schedule] in IH; exact IH. }
    destruct os as [|[s' e'] os]; [now cbn in S|]. cbn [map]. rewrite (schedule_cons _ _ _ _ _ os s' e' eq_refl). fold n. cbn in O. destruct O as [O1 [O2 [O3 O4]]]. cbn [same_but_head] in S. destruct S as [-> [S2 S3]].
    destruct (n + g <=? s') eqn:Es.
    + apply Nat.leb_le in Es. cbn [in_page] in I1. rewrite (proj2 (Nat.ltb_ge s' (n + g))) in I1 by lia. injection I1 as Ex <-. destruct x; [|discriminate]. exact IH.
    + rewrite I1, IH. cbn [omap]. destruct x as [|y x]; [|reflexivity].
      apply Nat.leb_gt in Es. cbn [in_page] in I1. rewrite (proj2 (Nat.ltb_lt s' (n + g))) in I1 by lia. destruct (e <=? _); [destruct (in_page g n os)|]; discriminate.
Qed.

(* ---- (C) the requests of a page ---- *)
Definition lens_of (x : list range) : nat := sumn (map (fun r => snd r - (fst r - 1)) x).
Lemma next_requests_step : forall k q t, 0 < lr_num q -> next_requests (lr_num q + (if lr_extra q then 1 else 0) + k) (q :: t) = omap (fun '(x, r) => (q :: x, r)) (next_requests k t).
Proof.
  intros k q t H. destruct (lr_num q + (if lr_extra q then 1 else 0) + k) as [|m] eqn:E; [lia|]. cbn [next_requests]. rewrite <- E.
  rewrite (proj2 (Nat.leb_le (lr_num q) _)) by (destruct (lr_extra q); lia). f_equal. f_equal. destruct (lr_extra q); lia.
Qed.
Lemma next_requests_spec : forall x p io rest n, ordered x n -> next_requests (lens_of x) (map (req p io) x ++ rest) = Some (map (req p io) x, rest).
Proof.
  intros x p io rest n O. unfold ordered in O. revert O. generalize 0 at 1. induction x as [|[a b] x IH]; intros e0 O.
  - destruct rest; reflexivity.
  - cbn in O. destruct O as [O1 [O2 [O3 O4]]]. specialize (IH b O4). cbn [map app].
    replace (lens_of ((a, b) :: x)) with (lr_num (req p io (a, b)) + (if lr_extra (req p io (a, b)) then 1 else 0) + lens_of x).
    + rewrite next_requests_step by (cbn; lia). rewrite IH. reflexivity.
    + unfold lens_of, req. cbn [map sumn lr_num lr_extra fst snd]. destruct (Nat.eqb_spec a 0); cbn [negb]; lia.
Qed.

(* ---- rows as lengths and validity ---- *)
Fixpoint runs (acc : nat) (ls : list nat) : list nat := match ls with [] => [] | l :: t => (acc + l) :: runs (acc + l) t end.
Fixpoint diffs (a : nat) (l : list nat) : list nat := match l with [] => [] | b :: t => (b - a) :: diffs b t end.
Fixpoint stored (adj acc : nat) (rows : list (nat * bool)) : list nat :=
  match rows with [] => [] | (l, v) :: t => (acc + l + if v then 0 else adj) :: stored adj (acc + l) t end.
Definition size (rows : list (nat * bool)) : nat := sumn (map fst rows).
Definition page_ok (p : lpage) (rows : list (nat * bool)) : Prop := lp_offsets p = stored (lp_adj p) 0 rows /\ size rows = lp_items p /\ lp_items p < lp_adj p.
Fixpoint chop {V} (rows : list (nat * bool)) (items : list V) : list (option (list V)) :=
  match rows with [] => [] | (l, v) :: t => (if v then Some (firstn l items) else None) :: chop t (skipn l items) end.

Lemma size_app : forall a b, size (a ++ b) = size a + size b.
Proof. intros. unfold size. now rewrite map_app, sumn_app. Qed.
Lemma size_cons : forall l v t, size ((l, v) :: t) = l + size t.
Proof. reflexivity. Qed.
Lemma runs_app : forall a b acc, runs acc (a ++ b) = runs acc a ++ runs (acc + sumn a) b.
Proof. induction a as [|x a IH]; intros b acc; cbn [app runs sumn]; [now rewrite Nat.add_0_r|]. rewrite IH, Nat.add_assoc. reflexivity. Qed.
Lemma runs_last : forall a acc d, last (runs acc a) d = match a with [] => d | _ => acc + sumn a end.
Proof.
  induction a as [|x a IH]; intros acc d; [reflexivity|]. cbn [runs sumn]. destruct a as [|y a]; [cbn; lia|].
  change (last (runs (acc + x) (y :: a)) d = acc + (x + sumn (y :: a))). rewrite IH. lia.
Qed.
Lemma runs_last_acc : forall a acc, last (runs acc a) acc = acc + sumn a.
Proof. intros. rewrite runs_last. destruct a; cbn; lia. Qed.
Lemma runs_length : forall a acc, length (runs acc a) = length a.
Proof. induction a; intros; cbn; auto. Qed.
Lemma diffs_length : forall l a, length (diffs a l) = length l.
Proof. induction l; intros; cbn; auto. Qed.
Lemma runs_diffs : forall l a, sorted_from a l -> runs a (diffs a l) = l.
Proof. induction l as [|b l IH]; intros a H; [reflexivity|]. cbn in *. destruct H as [H1 H2]. replace (a + (b - a)) with b by lia. now rewrite IH. Qed.
Lemma sumn_diffs : forall l a, sorted_from a l -> a + sumn (diffs a l) = last l a.
Proof.
  induction l as [|b l IH]; intros a H; [cbn; lia|]. cbn [diffs sumn]. cbn in H. destruct H as [H1 H2]. specialize (IH b H2).
  replace (last (b :: l) a) with (last l b); [lia|]. destruct l as [|c l]; [reflexivity|]. clear. change (last (c :: l) b = last (c :: l) a). revert c. induction l as [|d l IH]; intros c; [reflexivity|]. apply (IH d).
Qed.
Lemma last_cons : forall A (x : A) l d, last (x :: l) d = last l x.
Proof. intros A x l. revert x. induction l as [|y l IH]; intros x d; [reflexivity|]. change (last (y :: l) d = last (y :: l) x). rewrite (IH y d), (IH y x). reflexivity. Qed.
Lemma stored_length : forall rows adj acc, length (stored adj acc rows) = length rows.
Proof. induction rows as [|[l v] t IH]; intros; cbn; auto. Qed.
Lemma stored_app : forall a b adj acc, stored adj acc (a ++ b) = stored adj acc a ++ stored adj (acc + size a) b.
Proof. induction a as [|[l v] a IH]; intros b adj acc; cbn [app stored]; [unfold size; cbn; now rewrite Nat.add_0_r|]. rewrite IH, size_cons, Nat.add_assoc. reflexivity. Qed.
Lemma stored_skipn : forall n rows adj acc, skipn n (stored adj acc rows) = stored adj (acc + size (firstn n rows)) (skipn n rows).
Proof.
  intros n rows adj acc. rewrite <- (firstn_skipn n rows) at 1. rewrite stored_app, skipn_app, stored_length. rewrite skipn_all2 by (rewrite stored_length, firstn_length; lia).
  cbn [app]. destruct (le_lt_dec n (length rows)) as [L|L].
  - rewrite firstn_length. replace (n - Nat.min n (length rows)) with 0 by lia. reflexivity.
  - rewrite (skipn_all2 rows) by lia. cbn [stored]. apply skipn_nil.
Qed.
Lemma stored_firstn : forall n rows adj acc, firstn n (stored adj acc rows) = stored adj acc (firstn n rows).
Proof. induction n as [|n IH]; intros rows adj acc; [reflexivity|]. destruct rows as [|[l v] t]; [reflexivity|]. cbn. now rewrite IH. Qed.
Lemma stored_slice : forall a b rows adj acc, slice a b (stored adj acc rows) = stored adj (acc + size (firstn a rows)) (slice a b rows).
Proof. intros. unfold slice. now rewrite stored_skipn, stored_firstn. Qed.
Lemma mod_stored : forall c l (v : bool) adj, c + l < adj -> (c + l + if v then 0 else adj) mod adj = c + l.
Proof.
  intros c l v adj H. destruct v; [rewrite Nat.add_0_r; apply Nat.mod_small; lia|].
  rewrite <- (Nat.mul_1_l adj) at 1. rewrite Nat.mod_add by lia. apply Nat.mod_small; lia.
Qed.
Lemma stored_valid : forall rows adj acc, acc + size rows < adj -> map (fun o => o <? adj) (stored adj acc rows) = map snd rows.
Proof.
  induction rows as [|[l v] t IH]; intros adj acc H; [reflexivity|]. rewrite size_cons in H. cbn [stored map snd]. rewrite IH by lia. f_equal.
  destruct v; [apply Nat.ltb_lt; lia|apply Nat.ltb_ge; lia].
Qed.
Lemma shift_cons : forall adj acc a b t, shift adj acc (a :: b :: t) = if b mod adj <? a mod adj then None else omap (cons (acc + (b mod adj - a mod adj))) (shift adj (acc + (b mod adj - a mod adj)) (b :: t)).
Proof. reflexivity. Qed.
Lemma shift_stored : forall rows adj o c acc, o mod adj = c -> c + size rows < adj -> shift adj acc (o :: stored adj c rows) = Some (runs acc (map fst rows)).
Proof.
  induction rows as [|[l v] t IH]; intros adj o c acc Ho H; [reflexivity|]. rewrite size_cons in H.
  cbn [stored]. rewrite shift_cons, mod_stored by lia. rewrite Ho. rewrite (proj2 (Nat.ltb_ge (c + l) c)) by lia. replace (acc + (c + l - c)) with (acc + l) by lia.
  rewrite (IH adj _ (c + l)); [reflexivity|apply mod_stored; lia|lia].
Qed.
Lemma stored_last : forall rows adj o c, o mod adj = c -> c + size rows < adj -> nth (length rows) (o :: stored adj c rows) 0 mod adj = c + size rows.
Proof.
  induction rows as [|[l v] t IH]; intros adj o c Ho H; [unfold size; cbn; lia|]. rewrite size_cons in *. cbn [length stored]. 
  change (nth (length t) ((c + l + (if v then 0 else adj)) :: stored adj (c + l) t) 0 mod adj = c + (l + size t)). rewrite (IH adj _ (c + l)); [lia|apply mod_stored; lia|lia].
Qed.
Lemma size_firstn_le : forall n rows, size (firstn n rows) <= size rows.
Proof. intros n rows. rewrite <- (firstn_skipn n rows) at 2. rewrite size_app. lia. Qed.
Lemma size_slice : forall a b rows, a <= b -> size (firstn a rows) + size (slice a b rows) = size (firstn b rows).
Proof.
  intros a b rows H. rewrite <- size_app. f_equal. pose proof (slice_app_split _ 0 a b rows ltac:(lia) H) as E. unfold slice in E at 1 3. cbn [skipn] in E. now rewrite !Nat.sub_0_r in E.
Qed.

(* ---- (D) decoding the offsets of a page ---- *)
Definition item_range (rows : list (nat * bool)) (io : nat) (r : range) : list range :=
  let s := size (firstn (fst r) rows) in let e := size (firstn (snd r) rows) in if s <? e then [(s + io, e + io)] else [].
Lemma slice_off_piece : forall rows adj a b, 0 < a -> a < b -> b <= length rows -> size rows < adj ->
  exists o, slice (a - 1) b (stored adj 0 rows) = o :: stored adj (size (firstn a rows)) (slice a b rows) /\ o mod adj = size (firstn a rows).
Proof.
  intros rows adj a b H1 H2 H3 H4. rewrite <- (slice_app_split _ (a - 1) a b) by lia. rewrite !stored_slice. cbn [plus].
  assert (L : length (slice (a - 1) a rows) = 1) by (rewrite slice_length by lia; lia). destruct (slice (a - 1) a rows) as [|[l v] [|]] eqn:E; try discriminate.
  cbn [stored app]. eexists. split; [reflexivity|]. pose proof (size_slice (a - 1) a rows ltac:(lia)) as Q. rewrite E in Q. unfold size in Q at 2. cbn in Q. rewrite Nat.add_0_r in Q.
  pose proof (size_firstn_le a rows). rewrite mod_stored by lia. exact Q.
Qed.
Lemma decode_loop_extra : forall x p io rows vals used lastn e0,
  page_ok p rows -> ordered_from e0 x (length rows) -> 0 < e0 ->
  skipn used vals = flat_map (fun r => slice (fst r - 1) (snd r) (lp_offsets p)) x ->
  decode_loop vals (lp_adj p) (map (req p io) x) used lastn =
    Some (flat_map (item_range rows io) x, runs lastn (map fst (wanted rows x)), map snd (wanted rows x)).
Proof.
  induction x as [|[a b] x IH]; intros p io rows vals used lastn e0 [P1 [P2 P3]] O Z E; [reflexivity|].
  cbn in O. destruct O as [O1 [O2 [O3 O4]]]. cbn [flat_map fst snd] in E.
  assert (En : negb (a =? 0) = true) by (now rewrite (proj2 (Nat.eqb_neq a 0)) by lia).
  destruct (slice_off_piece rows (lp_adj p) a b ltac:(lia) O2 O3 ltac:(lia)) as [o [Eo Ho]]. rewrite P1, Eo in E. rewrite <- P1 in E.
  set (R := slice a b rows) in *. set (c := size (firstn a rows)) in *.
  assert (LR : length R = b - a) by (unfold R; apply slice_length; lia).
  assert (Hc : c + size R = size (firstn b rows)) by (unfold c, R; apply size_slice; lia).
  assert (Hb : c + size R < lp_adj p) by (rewrite Hc; pose proof (size_firstn_le b rows); lia).
  assert (Ev : forall k, nth (used + k) vals 0 = nth k (skipn used vals) 0).
  { intros k. rewrite <- (firstn_skipn used vals) at 1. destruct (le_lt_dec used (length vals)) as [L|L].
    - rewrite app_nth2; rewrite firstn_length; [f_equal; lia|lia].
    - assert (skipn used vals = []) by (apply skipn_all2; lia). rewrite H in E. discriminate. }
  assert (Es : forall i j, slice (used + i) (used + j) vals = slice i j (skipn used vals)).
  { intros i j. unfold slice. rewrite skipn_skipn'. f_equal. lia. }
  assert (Lh : length (o :: stored (lp_adj p) c R) = b - a + 1) by (cbn [length]; rewrite stored_length; lia).
  cbn [map decode_loop]. assert (Q1 : lr_num (req p io (a, b)) = b - a) by reflexivity. assert (Q2 : lr_extra (req p io (a, b)) = true) by exact En. assert (Q3 : lr_items (req p io (a, b)) = io) by reflexivity.
  rewrite Q1, Q2, Q3.
  assert (E1 : at_off vals used (lp_adj p) = c).
  { unfold at_off. replace used with (used + 0) by lia. rewrite Ev, E. exact Ho. }
  assert (E2 : at_off vals (used + (b - a + 1) - 1) (lp_adj p) = c + size R).
  { unfold at_off. replace (used + (b - a + 1) - 1) with (used + (b - a)) by lia. rewrite Ev, E. rewrite app_nth1 by (rewrite Lh; lia). rewrite <- LR. apply stored_last; auto. }
  assert (E3 : slice used (used + (b - a + 1)) vals = o :: stored (lp_adj p) c R).
  { replace (slice used (used + (b - a + 1)) vals) with (slice (used + 0) (used + (b - a + 1)) vals) by now rewrite Nat.add_0_r. rewrite Es, E, slice_app_l by (rewrite Lh; lia). rewrite <- Lh. apply slice_all. }
  assert (E4 : slice (used + 1) (used + 1 + (b - a)) vals = stored (lp_adj p) c R).
  { rewrite <- Nat.add_assoc, Es, E, slice_app_l by (rewrite Lh; lia). unfold slice. cbn [skipn]. replace (1 + (b - a) - 1) with (length (stored (lp_adj p) c R)) by (rewrite stored_length; lia). apply firstn_all. }
  rewrite E1, E2, E3, E4. rewrite (shift_stored R (lp_adj p) o c lastn Ho Hb). cbn [obind app].
  rewrite (IH p io rows vals (used + (b - a + 1)) _ b (conj P1 (conj P2 P3)) O4 ltac:(lia)).
  - cbn [omap]. unfold wanted. cbn [flat_map fst snd]. fold R. rewrite stored_valid by auto. rewrite !map_app, runs_app, runs_last_acc. unfold item_range at 2. cbn [fst snd]. fold c. rewrite <- Hc. reflexivity.
  - rewrite <- skipn_skipn'. replace (b - a + 1) with (length (o :: stored (lp_adj p) c R)) at 1 by exact Lh.
    rewrite E, skipn_app, skipn_all, Nat.sub_diag. reflexivity.
Qed.
Lemma decode_offsets_spec : forall x p io rows, page_ok p rows -> ordered x (length rows) -> 
  decode_offsets (flat_map (fun r => slice (fst r) (snd r) (lp_offsets p)) (map off_piece x)) (map (req p io) x) (lp_adj p) =
    Some (flat_map (item_range rows io) x, 0 :: runs 0 (map fst (wanted rows x)), map snd (wanted rows x)).
Proof.
  intros x p io rows P O. unfold decode_offsets.
  assert (Ef : flat_map (fun r => slice (fst r) (snd r) (lp_offsets p)) (map off_piece x) = flat_map (fun r => slice (fst r - 1) (snd r) (lp_offsets p)) x).
  { clear. induction x as [|r x IH]; [reflexivity|]. cbn. now rewrite IH. }
  rewrite Ef. destruct x as [|[a b] x]; [reflexivity|]. unfold ordered in O. pose proof O as O'. cbn in O. destruct O as [O1 [O2 [O3 O4]]]. destruct (Nat.eq_dec a 0) as [->|Q].
  2: { rewrite (decode_loop_extra _ p io rows _ 0 0 a P); [reflexivity| |lia|reflexivity]. cbn. auto. }
  pose proof P as P'. destruct P as [P1 [P2 P3]]. cbn [flat_map fst snd]. replace (0 - 1) with 0 by lia. rewrite P1 at 1. rewrite stored_slice. cbn [firstn size map sumn plus].
  assert (LR : length (slice 0 b rows) = b) by (rewrite slice_length by lia; lia).
  assert (HR : size (slice 0 b rows) = size (firstn b rows)) by (unfold slice; now rewrite Nat.sub_0_r).
  destruct (slice 0 b rows) as [|[l v] R] eqn:ER; [cbn in LR; lia|]. rewrite size_cons in HR. pose proof (size_firstn_le b rows). cbn [stored plus].
  set (o := l + (if v then 0 else lp_adj p)) in *. assert (Ho : o mod lp_adj p = l). { unfold o. pose proof (mod_stored 0 l v (lp_adj p)) as M. cbn in M. apply M. lia. }
  cbn [map decode_loop]. assert (Q1 : lr_num (req p io (0, b)) = b) by (cbn; lia). assert (Q2 : lr_extra (req p io (0, b)) = false) by reflexivity. assert (Q3 : lr_items (req p io (0, b)) = io) by reflexivity.
  rewrite Q1, Q2, Q3. cbn [plus].
  set (rest := flat_map (fun r : range => slice (fst r - 1) (snd r) (lp_offsets p)) x) in *.
  assert (Lh : length (o :: stored (lp_adj p) l R) = b) by (cbn [length] in *; rewrite stored_length; lia).
  assert (E1 : at_off (o :: stored (lp_adj p) l R ++ rest) 0 (lp_adj p) = l) by (unfold at_off; exact Ho).
  assert (E2 : at_off (o :: stored (lp_adj p) l R ++ rest) (b - 1) (lp_adj p) = l + size R).
  { unfold at_off. change (o :: stored (lp_adj p) l R ++ rest) with ((o :: stored (lp_adj p) l R) ++ rest). rewrite app_nth1 by (rewrite Lh; lia). replace (b - 1) with (length R) by (cbn [length] in LR; lia). apply stored_last; auto. lia. }
  assert (E3 : slice 0 b (o :: stored (lp_adj p) l R ++ rest) = o :: stored (lp_adj p) l R).
  { change (o :: stored (lp_adj p) l R ++ rest) with ((o :: stored (lp_adj p) l R) ++ rest). rewrite slice_app_l by (rewrite Lh; lia). rewrite <- Lh. apply slice_all. }
  cbn [app]. rewrite E1, E2, E3. rewrite (shift_stored R (lp_adj p) o l l Ho ltac:(lia)). cbn [obind].
  rewrite (decode_loop_extra x p io rows _ b _ b P' O4 ltac:(lia)).
  - cbn [omap app]. unfold wanted. cbn [flat_map fst snd]. rewrite ER. rewrite !map_app. cbn [map fst snd runs app]. rewrite last_cons, runs_last_acc. rewrite runs_app.
    rewrite stored_valid by lia. assert (Ei : item_range rows io (0, b) = if 0 <? l + size R then [(io, l + size R + io)] else []).
    { unfold item_range. cbn [fst snd firstn]. rewrite <- HR. reflexivity. }
    rewrite Ei. cbn [plus]. repeat f_equal. unfold o. destruct v; [apply Nat.ltb_lt; lia|apply Nat.ltb_ge; lia].
  - change (o :: stored (lp_adj p) l R ++ rest) with ((o :: stored (lp_adj p) l R) ++ rest). rewrite <- Lh at 1. rewrite skipn_app, skipn_all, Nat.sub_diag. reflexivity.
Qed.
