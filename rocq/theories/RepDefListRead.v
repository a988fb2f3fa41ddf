(* Reading back a list layer (C107). *)
From Coq Require Import List Arith Bool Lia.
From Verif Require Import Lib RepDefModel RepDefProofs RepDefRead RepDefList.
Import ListNotations.
Local Open Scope nat_scope.

(* ---- the layers below the lists: an unraveler and its shadow without lists ---- *)
Record shadow (u w : unraveler) : Prop := {
  sh_l2r : u_l2r u = u_l2r w; sh_cmp : u_def_cmp u = u_def_cmp w; sh_rep_u : u_rep_cmp u = 0; sh_rep_w : u_rep_cmp w = 0; sh_layer : u_layer u = u_layer w;
  sh_meaning : exists more, u_meaning u = u_meaning w ++ more;
  sh_def : match u_def w with Some ds => exists D, u_def u = Some D /\ forall c, visible (u_l2r u) 0 c D = visible (u_l2r u) 0 c ds | None => True end }.
Definition moved (u u' : unraveler) (k c : nat) : Prop :=
  u_rep u' = u_rep u /\ u_def u' = u_def u /\ u_l2r u' = u_l2r u /\ u_meaning u' = u_meaning u /\ u_rep_cmp u' = u_rep_cmp u /\ u_layer u' = u_layer u + k /\ u_def_cmp u' = u_def_cmp u + c.
Lemma step_shadow : forall u w w' v, shadow u w -> step1 w = Some (w', v) -> exists u', step1 u = Some (u', v) /\ shadow u' w' /\ moved u u' 1 (if is_some v then 1 else 0).
Proof.
  intros u w w' v [S1 S2 S3 S4 S5 [more S6] S7] E. unfold step1 in *. assert (A : forall x, u_all_valid w = Some x -> u_all_valid u = Some x).
  { unfold u_all_valid. intros x H. rewrite S6, S5. destruct (nth_error (u_meaning w) (u_layer w)) as [m|] eqn:Q; [|discriminate]. rewrite nth_error_app1 by (apply nth_error_Some; congruence). rewrite Q. exact H. }
  destruct (u_all_valid w) as [x|]; [|discriminate]. rewrite (A x eq_refl). cbn [obind] in *. destruct x.
  - injection E as <- <-. eexists. split; [reflexivity|]. split; [constructor; cbn; auto; eexists; exact S6|]. unfold moved. cbn. repeat split; lia.
  - unfold unravel_validity in *. destruct (u_def w) as [ds|] eqn:Qw; [|discriminate]. destruct S7 as [D [S7 S8]]. rewrite S7. cbn [obind] in *. rewrite S3, S2, S8, S1. rewrite S4 in E. destruct (visible (u_l2r w) 0 (u_def_cmp w) ds) as [vv|]; [|discriminate]. cbn in E. injection E as <- <-. cbn [omap]. eexists. split; [reflexivity|]. split.
    + constructor; cbn; auto; [eexists; exact S6|]. exists D. split; [reflexivity|]. rewrite <- S1. exact S8.
    + unfold moved. cbn. repeat split; try congruence; lia.
Qed.
Lemma one_step : forall u u' v, step1 u = Some (u', v) -> c_unravel_validity [u] = Some ([u'], v).
Proof.
  intros u u' v E. rewrite (c_step [u] [(u', v)] (is_some v)); [|constructor; [exact E|constructor]|intros x [<-|[]]; reflexivity]. cbn. destruct v; cbn; [rewrite app_nil_r|]; reflexivity.
Qed.
Lemma read_shadow : forall b u w vs, shadow u w -> read1 (repeat KItem b) w = Some vs ->
  exists u', moved u u' b (length (filter is_some vs)) /\ forall ks, read_layers (repeat KItem b ++ ks) [u] = omap (app (map GValid vs)) (read_layers ks [u']).
Proof.
  induction b as [|b IH]; intros u w vs S R.
  - cbn in R. injection R as <-. exists u. split; [unfold moved; cbn; repeat split; lia|]. intros ks. cbn. destruct (read_layers ks [u]); reflexivity.
  - cbn [repeat read1] in R. destruct (step1 w) as [[w' v]|] eqn:E; [|discriminate]. cbn [obind] in R. destruct (read1 (repeat KItem b) w') as [vs'|] eqn:R'; [|discriminate]. cbn in R. injection R as <-.
    destruct (step_shadow u w w' v S E) as [u1 [E1 [S1 M1]]]. destruct (IH u1 w' vs' S1 R') as [u' [M2 R2]]. exists u'. split.
    + unfold moved in *. destruct M1 as [A1 [A2 [A3 [A4 [A5 [A6 A7]]]]]], M2 as [B1 [B2 [B3 [B4 [B5 [B6 B7]]]]]]. cbn [filter]. repeat split; try congruence; [lia|]. rewrite B7, A7. destruct (is_some v); cbn; lia.
    + intros ks. cbn [repeat app read_layers]. rewrite (one_step u u1 v E1). cbn [obind]. rewrite R2. destruct (read_layers ks [u']); reflexivity.
Qed.
Lemma visible_app : forall l2r c a b, visible l2r 0 c (a ++ b) = obind (visible l2r 0 c a) (fun x => omap (app x) (visible l2r 0 c b)).
Proof.
  induction a as [|x a IH]; intros b; [cbn; destruct (visible l2r 0 c b); reflexivity|]. cbn [app visible]. destruct (nth_error l2r x) as [r|]; [|reflexivity]. cbn [obind]. rewrite IH. destruct (visible l2r 0 c a) as [y|]; [|reflexivity]. cbn. destruct (visible l2r 0 c b); cbn; destruct (r <=? 0); reflexivity.
Qed.
Lemma visible_out : forall ls nl el l2r c ds, length ds = total ls -> (forall x, In x ds -> nth_error l2r x = Some 0) -> (In None ls -> nth_error l2r nl = Some 1) -> (In (Some 0) ls -> nth_error l2r el = Some 1) ->
  visible l2r 0 c (out_def nl el ls ds) = visible l2r 0 c ds.
Proof.
  induction ls as [|[[|k]|] t IH]; intros nl el l2r c ds L Z N E.
  - destruct ds; [reflexivity|discriminate].
  - cbn [out_def visible]. rewrite E by (left; reflexivity). cbn [obind Nat.leb]. rewrite IH; auto; [destruct (visible l2r 0 c ds); reflexivity| |]; intros J; [apply N|apply E]; right; exact J.
  - unfold total in L. cbn [map sumn size] in L. fold (total t) in L. cbn [out_def]. rewrite <- (firstn_skipn (S k) ds) at 3. rewrite !visible_app. rewrite IH; auto.
    + rewrite skipn_length. lia.
    + intros x J. apply Z. rewrite <- (firstn_skipn (S k) ds). apply in_or_app. right. exact J.
    + intros J. apply N. right. exact J.
    + intros J. apply E. right. exact J.
  - cbn [out_def visible]. rewrite N by (left; reflexivity). cbn [obind Nat.leb]. rewrite IH; auto; [destruct (visible l2r 0 c ds); reflexivity| |]; intros J; [apply N|apply E]; right; exact J.
Qed.
Lemma levels_to_rep_items : forall vs ms, levels_to_rep 0 (map mean vs ++ ms) = repeat 0 (length (filter is_some vs)) ++ levels_to_rep 0 ms.
Proof. induction vs as [|[v|] vs IH]; intros ms; [reflexivity| |]; cbn; rewrite IH; reflexivity. Qed.

(* ---- the lists ---- *)
Lemma unr_def_run : forall nl el mx k cur rep def ds, length ds = k -> unr_def nl el mx cur (repeat 0 k ++ rep) (ds ++ def) = unr_def nl el mx (cur + k) rep def.
Proof.
  induction k as [|k IH]; intros cur rep def ds L; destruct ds as [|d ds]; try discriminate; [cbn; now rewrite Nat.add_0_r|]. cbn [repeat app unr_def]. rewrite IH by (cbn in L; lia). f_equal. lia.
Qed.
(* the positions of the first items of lists *)
Fixpoint firsts (a : nat) (ls : list (option nat)) : list nat := match ls with [] => [] | l :: t => (if size l =? 0 then [] else [a]) ++ firsts (a + size l) t end.
Lemma seq_split : forall s a b, seq s (a + b) = seq s a ++ seq (s + a) b.
Proof. intros. apply seq_app. Qed.
Lemma unr_def_lists : forall ls nl el mx G a, (In None ls -> nl <> 0 /\ nl <= mx) -> (In (Some 0) ls -> el <> 0 /\ el <= mx /\ el <> nl) -> (forall i, In i (firsts a ls) -> G i = 0 \/ (G i <= mx /\ G i <> nl /\ G i <> el)) ->
  exists rs ds, unr_def nl el mx a (out_rep 1 ls) (out_def nl el ls (map G (seq a (total ls)))) = (starts a ls, map is_some ls, (rs, ds), a + total ls).
Proof.
  induction ls as [|l t IH]; intros nl el mx G a N E H; [exists [], []; cbn; rewrite Nat.add_0_r; reflexivity|].
  assert (N' : In None t -> nl <> 0 /\ nl <= mx) by (intros J; apply N; right; exact J). assert (E' : In (Some 0) t -> el <> 0 /\ el <= mx /\ el <> nl) by (intros J; apply E; right; exact J).
  assert (H' : forall i, In i (firsts (a + size l) t) -> G i = 0 \/ (G i <= mx /\ G i <> nl /\ G i <> el)) by (intros i J; apply H; cbn [firsts]; apply in_or_app; right; exact J).
  destruct (IH nl el mx G (a + size l) N' E' H') as [rs [ds IHt]]. unfold out_rep, total in *. cbn [flat_map map sumn starts]. fold (out_rep 1 t) in *. fold (total t) in *.
  destruct l as [[|k]|]; cbn [size is_some out_def Nat.add] in *.
  - destruct (E (or_introl eq_refl)) as [E1 [E2 E3]]. rewrite Nat.add_0_r in *. cbn [app unr_def]. rewrite (proj2 (Nat.eqb_neq _ _) E1), (proj2 (Nat.ltb_ge _ _) E2), (proj2 (Nat.eqb_neq _ _) E3), Nat.eqb_refl. cbn zeta. rewrite IHt. eexists. eexists. reflexivity.
  - change (S (k + total t)) with (S k + total t). rewrite seq_split, map_app, firstn_app, map_length, seq_length, Nat.sub_diag, firstn_O, app_nil_r. rewrite firstn_all2 by (rewrite map_length, seq_length; lia). rewrite skipn_app, map_length, seq_length, Nat.sub_diag. rewrite skipn_all2 by (rewrite map_length, seq_length; lia). cbn [app skipn].
    cbn [seq map app unr_def]. assert (HG := H a (or_introl eq_refl)).
    assert (R : unr_def nl el mx (S a) (repeat 0 k ++ out_rep 1 t) (map G (seq (S a) k) ++ out_def nl el t (map G (seq (a + S k) (total t)))) = (starts (a + S k) t, map is_some t, (rs, ds), a + S k + total t)).
    { rewrite unr_def_run by (now rewrite map_length, seq_length). replace (S a + k) with (a + S k) by lia. exact IHt. }
    cbn zeta. rewrite R. destruct (Nat.eqb_spec (G a) 0) as [Z|Z].
    + rewrite Nat.add_assoc. eexists. eexists. reflexivity.
    + destruct HG as [HG|[HG1 [HG2 HG3]]]; [congruence|]. rewrite (proj2 (Nat.ltb_ge _ _) HG1), (proj2 (Nat.eqb_neq _ _) HG2), (proj2 (Nat.eqb_neq _ _) HG3). rewrite Nat.add_assoc. eexists. eexists. reflexivity.
  - destruct (N (or_introl eq_refl)) as [E1 E2]. rewrite Nat.add_0_r in *. cbn [app unr_def]. rewrite (proj2 (Nat.eqb_neq _ _) E1), (proj2 (Nat.ltb_ge _ _) E2), Nat.eqb_refl. cbn zeta. rewrite IHt. eexists. eexists. reflexivity.
Qed.
Lemma unr_rep_run : forall k cur rep, unr_rep cur (repeat 0 k ++ rep) = unr_rep (cur + k) rep.
Proof. induction k as [|k IH]; intros cur rep; [cbn; now rewrite Nat.add_0_r|]. cbn [repeat app unr_rep]. rewrite IH. f_equal. lia. Qed.
Lemma unr_rep_lists : forall ls a, forallb (fun x => 0 <? size x) ls = true -> exists rs, unr_rep a (out_rep 1 ls) = (starts a ls, rs).
Proof.
  induction ls as [|[[|k]|] t IH]; intros a H; cbn [forallb size] in H; try discriminate; [exists []; reflexivity|]. cbn in H. destruct (IH (a + S k) H) as [rs R]. unfold out_rep. cbn [flat_map app unr_rep]. fold (out_rep 1 t). rewrite unr_rep_run. replace (S a + k) with (a + S k) by lia. rewrite R. eexists. reflexivity.
Qed.
Lemma starts_sums : forall ls a, starts a ls ++ [a + total ls] = a :: sums a ls.
Proof. induction ls as [|l t IH]; intros a; [cbn; now rewrite Nat.add_0_r|]. cbn [starts sums app]. f_equal. rewrite <- IH. unfold total. cbn [map sumn]. rewrite Nat.add_assoc. reflexivity. Qed.
Lemma lens_sums : forall ls a, lens (a :: sums a ls) = map size ls.
Proof. induction ls as [|l t IH]; intros a; [reflexivity|]. cbn [sums map]. change (lens (a :: (a + size l) :: sums (a + size l) t)) with ((a + size l - a) :: lens ((a + size l) :: sums (a + size l) t)). rewrite IH. f_equal. lia. Qed.
Lemma lists_back : forall ls a, lists_of (a :: sums a ls) (Some (map is_some ls)) = ls.
Proof. intros ls a. unfold lists_of. rewrite lens_sums. induction ls as [|[n|] t IH]; [reflexivity| |]; cbn; rewrite IH; reflexivity. Qed.
Lemma lists_back_all : forall ls a, Forall (fun l => is_some l = true) ls -> lists_of (a :: sums a ls) None = ls.
Proof. intros ls a F. unfold lists_of. rewrite lens_sums. induction F as [|[n|] t H F IH]; [reflexivity| |discriminate]. cbn. rewrite IH. reflexivity. Qed.
Lemma read_above : forall a u, (forall j, j < a -> nth_error (u_meaning u) (u_layer u + j) = Some AllValidItem) -> read_layers (repeat KItem a) [u] = Some (repeat (GValid None) a).
Proof.
  induction a as [|a IH]; intros u H; [reflexivity|]. cbn [repeat read_layers]. rewrite (one_step u (skip_validity u) None).
  - cbn [obind]. rewrite IH; [reflexivity|]. intros j J. cbn [skip_validity u_meaning u_layer]. rewrite <- (H (S j)) by lia. f_equal. lia.
  - unfold step1, u_all_valid. specialize (H 0 ltac:(lia)). rewrite Nat.add_0_r in H. rewrite H. reflexivity.
Qed.

Lemma out_length : forall nl el t ds, length ds = total t -> length (out_rep 1 t) = length (out_def nl el t ds).
Proof.
  intros nl el. induction t as [|l t IH]; intros ds L; [reflexivity|]. unfold out_rep, total in *. cbn [flat_map out_def map sumn size] in *. fold (out_rep 1 t) in *. fold (total t) in *. destruct l as [[|k]|]; cbn [size] in L.
  - cbn [app length]. rewrite (IH ds L). reflexivity.
  - rewrite !app_length, (IH (skipn (S k) ds)) by (rewrite skipn_length; lia). rewrite firstn_length_le by lia. cbn [length]. rewrite repeat_length. reflexivity.
  - cbn [app length]. rewrite (IH ds L). reflexivity.
Qed.

(* ---- a page of lists ---- *)
(* the reader tells a list from a hidden one by its level when some list of the page may be null or is empty, or no list starts with a null *)
Definition starts_seen (b : nat) (p : list larray) : Prop :=
  existsb la_flag p = true \/ In (Some 0) (flat_map la_lists p) \/
  forall i, In i (firsts 0 (flat_map la_lists p)) -> nth i (page_nulls (repeat KItem b) (map la_below p)) None = None.
Definition page_lists_ok (a b : nat) (p : list larray) : Prop :=
  p <> [] /\ 0 < b /\ Forall (larray_ok a b) p /\ (0 < total (flat_map la_lists p) \/ forall x i, In x p -> In i (la_below x) -> in_valid i = None).
Lemma firsts_bound : forall ls a i, In i (firsts a ls) -> i < a + total ls.
Proof.
  induction ls as [|l t IH]; intros a i J; [destruct J|]. cbn [firsts] in J. unfold total. cbn [map sumn]. fold (total t). apply in_app_or in J as [J|J]; [|apply IH in J; lia]. destruct (Nat.eqb_spec (size l) 0); [destruct J|destruct J as [<-|[]]]. lia.
Qed.
Lemma not_all_some : forall p, existsb la_flag p = false -> Forall (fun l => is_some l = true) (flat_map la_lists p).
Proof.
  induction p as [|x p IH]; intros H; [constructor|]. cbn in H. apply orb_false_iff in H as [H1 H2]. cbn [flat_map]. apply Forall_app. split; [|auto]. unfold la_flag in H1. unfold la_lists. destruct (la_valid x); [discriminate|]. apply lists_all.
Qed.
Lemma empty_in : forall ls, existsb is_empty ls = true <-> In (Some 0) ls.
Proof. intros ls. rewrite existsb_exists. split; [intros [[[|k]|] [J E]]; try discriminate; exact J|]. intros J. exists (Some 0). auto. Qed.
Theorem page_lists_exact : forall a b p, page_lists_ok a b p -> starts_seen b p ->
  exists l vs os v, write_lists p = Some l /\
    read_layers (repeat KItem b ++ KList :: repeat KItem a) [new_unraveler l] = Some (map GValid vs ++ GList os v :: repeat (GValid None) a) /\
    lists_of os v = flat_map la_lists p /\ length vs = b /\
    nulls (repeat KItem b) vs (total (flat_map la_lists p)) = page_nulls (repeat KItem b) (map la_below p).
Proof.
  intros a b p [NP [B [F T]]] SS. set (ks := repeat KItem b) in *. set (ls := flat_map la_lists p) in *.
  assert (NK : ks <> []) by (unfold ks; destruct b; [lia|discriminate]). assert (LK : length ks = b) by apply repeat_length.
  assert (FB : Forall (array_ok ks) (map la_below p)) by (apply Forall_map; eapply Forall_impl; [|exact F]; intros x X; apply X).
  set (vs := page_valids ks (map la_below p)) in *. assert (LV : length vs = b) by (unfold vs, page_valids, joined; rewrite map_length, seq_length; exact LK).
  assert (T' : 0 < total ls \/ Forall (fun v => v = None) vs).
  { destruct T as [T|T]; [left; exact T|right]. destruct (builds ks _ FB) as [bs [S R]]. apply (no_nulls ks _ bs FB NK S). destruct (existsb b_nulls bs) eqn:X; [|reflexivity]. exfalso. apply existsb_exists in X as [bd [J X]].
    assert (Q : exists is, In is (map la_below p) /\ build is = Some bd) by (clear -R J; revert R J; generalize (map la_below p); intros q R J; induction R as [|is b0 q bs H R IH]; [destruct J|]; destruct J as [<-|J]; [exists is; split; [left; reflexivity|exact H]|destruct (IH J) as [y [Y1 Y2]]; exists y; split; [right; exact Y1|exact Y2]]).
    destruct Q as [is [Q1 Q2]]. apply in_map_iff in Q1 as [x [<- Q1]]. destruct (build_spec _ _ Q2) as [Q3 _]. unfold b_nulls in X. rewrite Q3 in X. apply existsb_exists in X as [ly [X1 X2]]. apply in_map_iff in X1 as [i [<- X1]]. specialize (T x i Q1 X1). clear -T X2. destruct i; cbn in T; subst; discriminate. }
  destruct (write_lists_levels a b p NP B F T') as [l [W [LL PI]]]. fold ks vs ls in LL, PI. set (f := existsb la_flag p) in *. exists l.
  unfold list_levels in LL. cbn zeta in LL. set (cnt := length (filter is_some vs)) in *. set (nl := null_at (S cnt) f ls) in *. set (el := empty_at (S cnt) f ls) in *. set (ch := combine (repeat 1 (length vs)) vs) in *. set (G := level 1 ch) in *. destruct LL as [L1 [L2 L3]].
  assert (CH : ch = combine (mults 1 ks) vs) by (unfold ch, ks; rewrite mults_items, LV; reflexivity).
  assert (GB : forall i, G i <= cnt).
  { intros i. unfold G. pose proof (level_bound ch 1 i) as Q. unfold ch in Q. rewrite (nullable_combine (repeat 1 (length vs)) vs) in Q by (now rewrite repeat_length). fold ch cnt in Q. lia. }
  assert (NN : In None ls -> f = true) by (intros J; destruct f eqn:Q; [reflexivity|]; pose proof (not_all_some p Q) as A; rewrite Forall_forall in A; specialize (A None J); discriminate).
  set (u := new_unraveler l). set (l2r := u_l2r u).
  assert (R0 : l2r = (0 :: repeat 0 cnt) ++ levels_to_rep 0 (lmean f ls :: repeat AllValidItem a)) by (unfold l2r, u; cbn [new_unraveler u_l2r]; rewrite L2, levels_to_rep_items; reflexivity).
  assert (Z0 : forall x, x <= cnt -> nth_error l2r x = Some 0) by (intros x X; rewrite R0, nth_error_app1 by (cbn; rewrite repeat_length; lia); destruct x as [|x]; [reflexivity|]; cbn [nth_error]; apply nth_error_repeat; lia).
  assert (Z1 : forall x, nth_error l2r (S cnt + x) = nth_error (levels_to_rep 0 (lmean f ls :: repeat AllValidItem a)) x) by (intros x; rewrite R0, nth_error_app2 by (cbn; rewrite repeat_length; lia); f_equal; cbn; rewrite repeat_length; lia).
  assert (ZN : In None ls -> nth_error l2r nl = Some 1).
  { intros J. specialize (NN J). unfold nl, null_at. rewrite NN. specialize (Z1 0). rewrite Nat.add_0_r in Z1. rewrite Z1. unfold lmean. rewrite NN. destruct (existsb is_empty ls); reflexivity. }
  assert (ZE : In (Some 0) ls -> nth_error l2r el = Some 1).
  { intros J. apply empty_in in J. unfold el, empty_at. rewrite J. destruct f eqn:Qf; unfold lmean in Z1; rewrite J in Z1; [exact (Z1 1)|]. specialize (Z1 0). rewrite Nat.add_0_r in Z1. exact Z1. }
  (* the items *)
  set (w := {| u_rep := None; u_def := if existsb is_some vs then Some (map G (seq 0 (total ls))) else None; u_l2r := l2r; u_meaning := map mean vs; u_def_cmp := 0; u_rep_cmp := 0; u_layer := 0 |}).
  assert (SH : shadow u w).
  { constructor; try reflexivity; [exists (lmean f ls :: repeat AllValidItem a); exact L2|]. cbn [w u_def]. destruct (existsb is_some vs) eqn:X; [|exact Logic.I]. cbn [orb] in L3. exists (out_def nl el ls (map G (seq 0 (total ls)))). split; [exact L3|]. intros c. apply visible_out; auto; [now rewrite map_length, seq_length|]. intros x J. apply in_map_iff in J as [i [<- _]]. apply Z0. apply GB. }
  assert (BF : before G (total ls) 1 0 ks vs w).
  { constructor; cbn [w u_rep u_rep_cmp u_def_cmp u_meaning u_layer u_l2r u_def]; auto.
    - destruct (existsb is_some vs); [left; exists (total ls); split; [f_equal; apply map_ext; intros; f_equal; lia|lia]|right; auto].
    - intros i Hi. cbn zeta. rewrite <- CH. fold G. destruct (Nat.eqb_spec (G i) 0); [lia|reflexivity]. }
  assert (ONE : forall m, In m (mults 1 ks) -> 0 < m /\ exists q, q * m = total ls) by (intros m J; unfold ks in J; rewrite mults_items in J; apply repeat_spec in J; subst m; split; [lia|exists (total ls); lia]).
  destruct (read1_before ks vs G (total ls) 1 0 w) as [vs' [R1 [R2 [_ R4]]]]; [congruence|lia|exact ONE|intros J; apply repeat_spec in J; discriminate|exists (total ls); lia|exact BF|].
  destruct (read_shadow b u w vs' SH R1) as [u1 [M RL]]. destruct M as [M1 [M2 [M3 [M4 [M5 [M6 M7]]]]]].
  assert (CNT : length (filter is_some vs') = cnt).
  { unfold cnt. clear -R2. generalize dependent vs. clear. intros vs. revert vs. induction vs' as [|x t IH]; intros [|y s] R2; try discriminate; [reflexivity|]. cbn in R2. injection R2 as R2 R3. cbn. rewrite R2. specialize (IH s R3). destruct (is_some y); cbn; congruence. }
  (* the lists *)
  assert (MEAN : nth_error (u_meaning u1) (u_layer u1) = Some (lmean f ls)).
  { rewrite M4, M6. unfold u. cbn [new_unraveler u_meaning u_layer]. rewrite L2, nth_error_app2 by (rewrite map_length; lia). rewrite map_length, LV. cbn [Nat.add]. rewrite Nat.sub_diag. reflexivity. }
  assert (UO : exists u2 ws, unravel_offsets u1 [] = Some (u2, 0 :: sums 0 ls, ws) /\ u_meaning u2 = u_meaning u1 /\ u_layer u2 = S (u_layer u1) /\ (f = true -> ws = map is_some ls)).
  { unfold unravel_offsets. rewrite M1. unfold u at 1. cbn [new_unraveler u_rep]. rewrite L1. cbn [obind]. rewrite MEAN. cbn [obind last removelast app].
    assert (LEV : exists cmp, match lmean f ls with NullableList => Some (u_def_cmp u1 + 1, u_def_cmp u1 + 1, 0) | EmptyableList => Some (u_def_cmp u1 + 1, 0, u_def_cmp u1 + 1) | NullableAndEmptyableList => Some (u_def_cmp u1 + 2, u_def_cmp u1 + 1, u_def_cmp u1 + 2) | AllValidList => Some (u_def_cmp u1, 0, 0) | _ => None end = Some (cmp, nl, el)).
    { rewrite M7, CNT. unfold u. cbn [new_unraveler u_def_cmp Nat.add]. unfold nl, el, null_at, empty_at, lmean. replace (cnt + 1) with (S cnt) by lia. replace (cnt + 2) with (S cnt + 1) by lia. destruct f, (existsb is_empty ls); eexists; reflexivity. }
    destruct LEV as [cmp ->]. cbn [obind]. rewrite M2. unfold u at 1. cbn [new_unraveler u_def]. rewrite L3.
    destruct (existsb is_some vs || negb (forallb (fun x => 0 <? size x) ls)) eqn:X.
    - assert (LEN : length (out_rep 1 ls) = length (out_def nl el ls (map G (seq 0 (total ls))))).
      { apply out_length. now rewrite map_length, seq_length. }
      rewrite <- LEN, Nat.eqb_refl. destruct (unr_def_lists ls nl el (Nat.max nl el) G 0) as [rs [ds Q]].
      + intros J. specialize (NN J). assert (QN : nl = S cnt) by (unfold nl, null_at; rewrite NN; reflexivity). lia.
      + intros J. apply empty_in in J. assert (QE : el = if f then S cnt + 1 else S cnt) by (unfold el, empty_at; rewrite J; reflexivity). assert (QN : nl = if f then S cnt else 0) by reflexivity. clearbody nl el. destruct f; lia.
      + intros i J. destruct (Nat.eq_dec (G i) 0) as [Z|Z]; [left; exact Z|right]. pose proof (GB i) as GBi. destruct SS as [SS|[SS|SS]].
        * change (f = true) in SS. assert (nl = S cnt) by (unfold nl, null_at; rewrite SS; reflexivity). assert (el = 0 \/ S cnt < el) by (unfold el, empty_at; rewrite SS; destruct (existsb is_empty ls); lia). lia.
        * apply empty_in in SS. fold ls in SS. assert (nl = 0 \/ nl = S cnt) by (unfold nl, null_at; destruct f; auto). assert (S cnt <= el) by (unfold el, empty_at; rewrite SS; destruct f; lia). lia.
        * exfalso. apply Z. specialize (SS i J). fold ks in SS. rewrite <- (page_nulls_joined ks _ FB NK) in SS. fold vs in SS. rewrite PI in SS. pose proof (firsts_bound ls 0 i J) as Bi. unfold nulls in SS. rewrite (nth_map_seq _ (outermost_null (combine (mults 1 ks) vs))) in SS by lia. apply level_zero; [lia|]. rewrite CH. exact SS.
      + rewrite Q. eexists. eexists. split; [rewrite Nat.add_0_l, starts_sums; reflexivity|]. cbn. auto.
    - apply orb_false_iff in X as [X1 X2]. apply negb_false_iff in X2. destruct (unr_rep_lists ls 0 X2) as [rs Q]. rewrite Q.
      assert (OL : length (out_rep 1 ls) = total ls) by (destruct (no_specials ls 0 0 1 0) as [N1 _]; destruct (N1 X2) as [_ [N2 _]]; rewrite N2; apply start_rep_length).
      rewrite OL, starts_sums. eexists. eexists. split; [reflexivity|]. cbn [u_meaning u_layer]. split; [reflexivity|]. split; [reflexivity|].
      intros _. clear -X2. assert (Q : forall ls a, forallb (fun x => 0 <? size x) ls = true -> repeat true (length (starts a ls)) = map is_some ls); [|apply Q; exact X2].
        induction ls0 as [|[[|k]|] t IH]; intros a0 H; cbn in H; try discriminate; [reflexivity|]. cbn. rewrite IH by exact H. reflexivity. }
  destruct UO as [u2 [ws [UO [U1 [U2 U3]]]]]. exists vs', (0 :: sums 0 ls), (if f then Some ws else None). split; [exact W|].
  assert (VB : length vs' = b) by (rewrite <- (map_length is_some vs'), R2, map_length; exact LV).
  split; [|split; [|split; [exact VB|]]].
  - fold u. rewrite RL. cbn [read_layers]. unfold c_unravel_offsets, all_valid_layer. cbn [map sequence_opt]. unfold u_all_valid. rewrite MEAN. cbn [omap obind c_offsets]. rewrite UO. cbn [omap obind forallb andb]. rewrite app_nil_r.
    assert (AV : m_all_valid (lmean f ls) = negb f) by (unfold lmean; destruct f, (existsb is_empty ls); reflexivity). rewrite AV, andb_true_r. rewrite read_above.
    + cbn [omap]. destruct f; reflexivity.
    + intros j J. rewrite U1, U2, M4, M6. unfold u. cbn [new_unraveler u_meaning u_layer]. rewrite L2, nth_error_app2 by (rewrite map_length; lia). rewrite map_length, LV. replace (S (0 + b) + j - b) with (S j) by lia. cbn [nth_error]. apply nth_error_repeat. exact J.
  - destruct f eqn:Qf; [rewrite (U3 eq_refl); apply lists_back|]. apply lists_back_all. apply not_all_some. exact Qf.
  - rewrite <- (page_nulls_joined ks _ FB NK). fold vs. rewrite PI. unfold nulls. apply map_ext_in. intros i J. apply in_seq in J. apply R4. lia.
Qed.
