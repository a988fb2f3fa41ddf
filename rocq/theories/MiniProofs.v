(* Chunks of the mini-block layout as pieces of rows. *)
From Coq Require Import List Arith NArith ZArith Bool Lia.
From Verif Require Import Lib SerdeModel SerdeProofs RepDefModel FullZipModel FullZipProofs FullZipRead FullZipPage FullZipVar MiniModel.
Import ListNotations.
Local Open Scope nat_scope.

Ltac pe := repeat match goal with |- (_, _) = (_, _) => apply (f_equal2 pair) | |- Some _ = Some _ => apply (f_equal Some) end; try reflexivity; try lia.

(* ---- pieces of rows ---- *)
Section Split.
Context (L : nat).
Definition st (x : item) : bool := i_rep x =? L.
Definition count (l : list item) : nat := length (filter st l).
(* the items before the first start of a row, then the pieces that start with one *)
Fixpoint split (l : list item) : list (list item) :=
  match l with
  | [] => [[]]
  | x :: t => if st x then [] :: (x :: hd [] (split t)) :: tl (split t) else (x :: hd [] (split t)) :: tl (split t)
  end.
Definition join (x y : list (list item)) : list (list item) := removelast x ++ (last x [] ++ hd [] y) :: tl y.
Lemma split_ne : forall l, exists h t, split l = h :: t.
Proof. destruct l as [|x l]; cbn; [eauto|]. destruct (st x); eauto. Qed.
Lemma split_eta : forall l, split l = hd [] (split l) :: tl (split l).
Proof. intros l. destruct (split_ne l) as [h [t E]]. rewrite E. reflexivity. Qed.
Lemma split_concat : forall l, concat (split l) = l.
Proof.
  induction l as [|x l IH]; [reflexivity|]. cbn [split]. rewrite split_eta in IH. cbn [concat] in IH. destruct (st x); cbn [concat app]; rewrite IH; reflexivity.
Qed.
Lemma split_length : forall l, length (split l) = S (count l).
Proof.
  unfold count. induction l as [|x l IH]; [reflexivity|]. cbn [split filter]. rewrite split_eta in IH. cbn [length] in IH. destruct (st x); cbn [length]; lia.
Qed.
Lemma tl_split_length : forall l, length (tl (split l)) = count l.
Proof. intros l. assert (Q := split_length l). rewrite split_eta in Q. cbn in Q. lia. Qed.
Lemma count_app : forall a b, count (a ++ b) = count a + count b.
Proof. intros a b. unfold count. rewrite filter_app, app_length. reflexivity. Qed.
Lemma join_cons : forall h t y, t <> [] -> join (h :: t) y = h :: join t y.
Proof. intros h t y NE. unfold join. destruct t as [|a t]; [congruence|]. reflexivity. Qed.
Lemma split_app : forall a b, split (a ++ b) = join (split a) (split b).
Proof.
  induction a as [|x a IH]; intros b; [cbn; unfold join; cbn; apply split_eta|]. cbn [app split]. rewrite IH. destruct (split_ne a) as [h [t E]]. rewrite E. cbn [hd tl].
  assert (Q : forall y, join ((y :: h) :: t) (split b) = (y :: hd [] (join (h :: t) (split b))) :: tl (join (h :: t) (split b))) by (intros y; unfold join; destruct t as [|a' t]; reflexivity).
  destruct (st x); [rewrite (join_cons [] ((x :: h) :: t)) by discriminate|]; rewrite Q; reflexivity.
Qed.
Lemma join_length : forall x y, x <> [] -> y <> [] -> length (join x y) + 1 = length x + length y.
Proof.
  intros x y X Y. unfold join. rewrite app_length. cbn [length]. destruct y as [|h y]; [congruence|]. cbn [tl length]. rewrite (app_removelast_last [] X) at 2. rewrite app_length. cbn [length]. lia.
Qed.
Lemma join_concat : forall x y, x <> [] -> y <> [] -> concat (join x y) = concat x ++ concat y.
Proof.
  intros x y X Y. unfold join. rewrite concat_app. cbn [concat]. rewrite (app_removelast_last [] X) at 3. rewrite concat_app. cbn [concat]. destruct y as [|h y]; [congruence|]. cbn [hd tl concat]. rewrite app_nil_r, <- !app_assoc. reflexivity.
Qed.
Lemma join_nil_hd : forall x y, x <> [] -> hd [] y = [] -> join x y = x ++ tl y.
Proof. intros x y X Y. unfold join. rewrite Y, app_nil_r. rewrite (app_removelast_last [] X) at 3. rewrite <- app_assoc. reflexivity. Qed.
(* rows and pieces *)
Definition row_start (r : list item) : Prop := match r with x :: t => st x = true /\ Forall (fun y => st y = false) t | [] => False end.
Lemma split_nonst : forall t, Forall (fun y => st y = false) t -> forall rest, split (t ++ rest) = (t ++ hd [] (split rest)) :: tl (split rest).
Proof. intros t F. induction F as [|x t X F IH]; intros rest; [cbn; apply split_eta|]. cbn [app split]. rewrite X, IH. reflexivity. Qed.
Lemma split_rows : forall us, Forall row_start us -> split (concat us) = [] :: us.
Proof.
  intros us F. induction F as [|r us R F IH]; [reflexivity|]. destruct r as [|x t]; [destruct R|]. destruct R as [R1 R2]. cbn [concat app split]. rewrite R1, split_nonst by exact R2. rewrite IH. cbn [hd tl]. rewrite app_nil_r. reflexivity.
Qed.
Lemma split_pieces : forall l, Forall (fun y => st y = false) (hd [] (split l)) /\ Forall row_start (tl (split l)).
Proof.
  induction l as [|x l [I1 I2]]; [cbn; auto|]. cbn [split]. destruct (st x) eqn:E; cbn [hd tl]; split; auto.
  constructor; [cbn; auto|exact I2].
Qed.
Lemma hd_split : forall l, hd [] (split l) = [] <-> match l with x :: _ => st x = true | [] => True end.
Proof. destruct l as [|x l]; cbn; [tauto|]. destruct (st x); cbn; [tauto|]. split; discriminate. Qed.
End Split.

(* ---- the ranges of items and levels of rows of a chunk ---- *)
Section Map.
Context (L mv : nat) (vis : item -> bool).
Definition vcount (l : list item) : nat := length (filter vis l).
Definition icount (l : list item) : nat := length (filter (fun x => negb (vis x)) l).
Lemma vcount_app : forall a b, vcount (a ++ b) = vcount a + vcount b.
Proof. intros a b. unfold vcount. rewrite filter_app, app_length. reflexivity. Qed.
Lemma icount_app : forall a b, icount (a ++ b) = icount a + icount b.
Proof. intros a b. unfold icount. rewrite filter_app, app_length. reflexivity. Qed.
Lemma vi_count : forall l, vcount l + icount l = length l.
Proof. intros l. unfold vcount, icount. induction l as [|x l IH]; [reflexivity|]. cbn [filter length]. destruct (vis x); cbn [negb length]; lia. Qed.
Definition lv (l : list item) : list (nat * nat) := map (fun x => (i_rep x, i_def x)) l.
Lemma combine_lv : forall l, combine (map i_rep l) (map i_def l) = lv l.
Proof. induction l as [|x l IH]; [reflexivity|]. cbn. now rewrite IH. Qed.
Lemma lv_app : forall a b, lv (a ++ b) = lv a ++ lv b.
Proof. intros. apply map_app. Qed.
(* the levels tell which items have values *)
Definition told (x : item) : Prop := vis x = (i_def x <=? mv).
(* only the first item of a row may be without a value *)
Definition inner_vis (r : list item) : Prop := Forall (fun x => vis x = true) (tl r).
Lemma icount_vis : forall l, Forall (fun x => vis x = true) l -> icount l = 0.
Proof. intros l F. unfold icount. induction F as [|x l X F IH]; [reflexivity|]. cbn. rewrite X. exact IH. Qed.
Lemma vcount_vis : forall l, Forall (fun x => vis x = true) l -> vcount l = length l.
Proof. intros l F. assert (Q := vi_count l). rewrite icount_vis in Q by exact F. lia. Qed.

Notation nost := (fun y => st L y = false).
Lemma lead_tail : forall t, Forall nost t -> forall s idx rows inv rest, lead L mv s idx rows inv (lv (t ++ rest)) = lead L mv s (idx + length t) rows inv (lv rest).
Proof.
  intros t F. induction F as [|x t X F IH]; intros s idx rows inv rest; [now rewrite Nat.add_0_r|]. unfold st in X. cbn [app lv map lead length]. rewrite X. fold (lv (t ++ rest)). rewrite IH. f_equal. lia.
Qed.
Lemma tail_tail : forall t, Forall nost t -> forall s idx rows inv rest, tail L mv s idx rows inv (lv (t ++ rest)) = tail L mv s (idx + length t) rows inv (lv rest).
Proof.
  intros t F. induction F as [|x t X F IH]; intros s idx rows inv rest; [now rewrite Nat.add_0_r|]. unfold st in X. cbn [app lv map tail length]. rewrite X. fold (lv (t ++ rest)). rewrite IH. f_equal. lia.
Qed.
Lemma walk_tail : forall t, Forall nost t -> forall s idx rows rest, walk_rep L s idx rows (map i_rep (t ++ rest)) = walk_rep L s (idx + length t) rows (map i_rep rest).
Proof.
  intros t F. induction F as [|x t X F IH]; intros s idx rows rest; [now rewrite Nat.add_0_r|]. unfold st in X. cbn [app map walk_rep length]. rewrite X. rewrite IH. f_equal. lia.
Qed.
Lemma icount_row : forall x t, told x -> Forall (fun y => vis y = true) t -> icount (x :: t) = if i_def x <=? mv then 0 else 1.
Proof. intros x t T F. unfold icount. cbn [filter]. unfold told in T. rewrite T. assert (Q := icount_vis t F). unfold icount in Q. destruct (i_def x <=? mv); cbn [negb length]; lia. Qed.
Lemma lead_rows : forall Rs k idx rows inv, Forall (row_start L) Rs -> Forall told (concat Rs) -> Forall inner_vis Rs -> k < length Rs ->
  lead L mv (rows + k + 1) idx rows inv (lv (concat Rs)) = (Some (idx + length (concat (firstn k Rs)) + 1), rows + k + 1, inv + icount (concat (firstn k Rs))).
Proof.
  induction Rs as [|r Rs IH]; intros k idx rows inv F T V K; [cbn in K; lia|]. inversion F as [|? ? F1 F2]; subst. inversion V as [|? ? V1 V2]; subst. destruct r as [|x t]; [destruct F1|]. destruct F1 as [X F1]. unfold inner_vis in V1. cbn [tl] in V1. cbn [concat app] in T. inversion T as [|? ? T1 T2]; subst. apply Forall_app in T2 as [T2 T3].
  cbn [concat app lv map lead]. fold (lv (t ++ concat Rs)). unfold st in X. rewrite X. destruct k as [|k].
  - rewrite (proj2 (Nat.eqb_eq (S rows) (rows + 0 + 1))) by lia. cbn [firstn concat length]. unfold icount. cbn [filter length]. pe.
  - rewrite (proj2 (Nat.eqb_neq (S rows) (rows + S k + 1))) by lia. rewrite lead_tail by exact F1. replace (rows + S k + 1) with (S rows + k + 1) by lia. rewrite IH by (auto; cbn in K; lia). rewrite firstn_cons. cbn [concat]. rewrite icount_app, app_length, (icount_row x t T1 V1). cbn [length]. destruct (i_def x <=? mv); pe.
Qed.
Lemma tail_rows : forall Rs k idx rows inv, Forall (row_start L) Rs -> Forall told (concat Rs) -> Forall inner_vis Rs ->
  tail L mv (rows + k + 1) idx rows inv (lv (concat Rs)) = if k <? length Rs then (Some (idx + length (concat (firstn k Rs)) + 1), inv + icount (concat (firstn k Rs))) else (None, inv + icount (concat Rs)).
Proof.
  induction Rs as [|r Rs IH]; intros k idx rows inv F T V; [cbn; f_equal; unfold icount; cbn; lia|]. inversion F as [|? ? F1 F2]; subst. inversion V as [|? ? V1 V2]; subst. destruct r as [|x t]; [destruct F1|]. destruct F1 as [X F1]. unfold inner_vis in V1. cbn [tl] in V1. cbn [concat app] in T. inversion T as [|? ? T1 T2]; subst. apply Forall_app in T2 as [T2 T3].
  cbn [concat app lv map tail]. fold (lv (t ++ concat Rs)). unfold st in X. rewrite X. destruct k as [|k].
  - rewrite (proj2 (Nat.eqb_eq (S rows) (rows + 0 + 1))) by lia. cbn [firstn concat length]. unfold icount. cbn [filter length Nat.ltb Nat.leb]. pe.
  - rewrite (proj2 (Nat.eqb_neq (S rows) (rows + S k + 1))) by lia. rewrite tail_tail by exact F1. replace (rows + S k + 1) with (S rows + k + 1) by lia. rewrite IH by auto. rewrite firstn_cons. cbn [concat length]. rewrite !icount_app, app_length, (icount_row x t T1 V1). change (x :: t ++ concat Rs) with ((x :: t) ++ concat Rs). rewrite icount_app, (icount_row x t T1 V1). cbn [length]. change (S k <? S (length Rs)) with (k <? length Rs). destruct (k <? length Rs); destruct (i_def x <=? mv); pe.
Qed.
Lemma walk_rows : forall Rs k idx rows, Forall (row_start L) Rs ->
  walk_rep L (rows + k + 1) idx rows (map i_rep (concat Rs)) = if k <? length Rs then (Some (idx + length (concat (firstn k Rs)) + 1), rows + k + 1) else (None, rows + length Rs).
Proof.
  induction Rs as [|r Rs IH]; intros k idx rows F; [cbn; f_equal; lia|]. inversion F as [|? ? F1 F2]; subst. destruct r as [|x t]; [destruct F1|]. destruct F1 as [X F1].
  cbn [concat app map walk_rep]. unfold st in X. rewrite X. destruct k as [|k].
  - rewrite (proj2 (Nat.eqb_eq (S rows) (rows + 0 + 1))) by lia. cbn [firstn concat length Nat.ltb Nat.leb]. pe.
  - rewrite (proj2 (Nat.eqb_neq (S rows) (rows + S k + 1))) by lia. rewrite walk_tail by exact F1. replace (rows + S k + 1) with (S rows + k + 1) by lia. rewrite IH by auto. rewrite firstn_cons. cbn [concat length]. rewrite app_length. cbn [length]. change (S k <? S (length Rs)) with (k <? length Rs). destruct (k <? length Rs); pe.
Qed.
Lemma preamble_pos : forall P, Forall nost P -> Forall told P -> forall idx n rest,
  preamble_def L mv idx n (lv (P ++ rest)) = match rest with x :: _ => if st L x then (Some (idx + length P), n + vcount P) else preamble_def L mv (idx + length P) (n + vcount P) (lv rest) | [] => (None, n + vcount P) end.
Proof.
  intros P F. induction F as [|x P X F IH]; intros T idx n rest.
  - cbn [app length]. unfold vcount. cbn [filter length]. rewrite !Nat.add_0_r. destruct rest as [|y rest]; [reflexivity|]. cbn [lv map preamble_def]. unfold st. destruct (i_rep y =? L); reflexivity.
  - inversion T as [|? ? T1 T2]; subst. cbn [app lv map preamble_def]. unfold st in X. rewrite X. fold (lv (P ++ rest)). rewrite IH by exact T2. unfold vcount. cbn [filter length]. unfold told in T1. rewrite <- T1. replace (S idx + length P) with (idx + S (length P)) by lia. destruct (vis x); cbn [length]; rewrite ?Nat.add_succ_r; reflexivity.
Qed.
Lemma position_pos : forall P, Forall nost P -> forall idx rest,
  position L idx (map i_rep (P ++ rest)) = match rest with x :: _ => if st L x then Some (idx + length P) else position L (idx + length P) (map i_rep rest) | [] => None end.
Proof.
  intros P F. induction F as [|x P X F IH]; intros idx rest.
  - cbn [app length]. rewrite Nat.add_0_r. destruct rest as [|y rest]; [reflexivity|]. cbn [map position]. unfold st. destruct (i_rep y =? L); reflexivity.
  - cbn [app map position]. unfold st in X. rewrite X, IH. cbn [length]. replace (S idx + length P) with (idx + S (length P)) by lia. reflexivity.
Qed.

(* what comes before a selection of rows of a chunk, and the selection *)
Definition before (a : action) (s : nat) (c : list item) : list item := match a with Take => [] | _ => hd [] (split L c) ++ concat (firstn s (tl (split L c))) end.
Definition chosen (a : action) (s n : nat) (c : list item) : list item := match a with Take => hd [] (split L c) | _ => [] end ++ concat (firstn n (skipn s (tl (split L c)))).
Lemma concat_cut : forall (Rs : list (list item)) s n, concat Rs = concat (firstn s Rs) ++ concat (firstn n (skipn s Rs)) ++ concat (skipn (s + n) Rs).
Proof. intros Rs s n. rewrite <- !concat_app. rewrite <- skipn_skipn', firstn_skipn, firstn_skipn. reflexivity. Qed.
Lemma chosen_mid : forall a s n c, (a = Take -> s = 0) -> exists rest, c = before a s c ++ chosen a s n c ++ rest.
Proof.
  intros a s n c A. exists (concat (skipn (s + n) (tl (split L c)))). unfold before, chosen. assert (Q := split_concat L c). rewrite split_eta in Q. cbn [concat] in Q. rewrite (concat_cut _ s n) in Q. rewrite <- Q at 1.
  destruct a; [rewrite A by reflexivity; cbn [firstn concat app]; now rewrite <- app_assoc| |]; cbn [app]; now rewrite <- !app_assoc.
Qed.

Theorem map_range_ok : forall c hd_ a s n, Forall (fun x => vis x = true) (hd [] (split L c)) -> Forall inner_vis (tl (split L c)) ->
  (hd_ = true -> Forall told c) -> (hd_ = false -> Forall (fun x => vis x = true) c) -> (a = Absent -> hd [] (split L c) = []) -> (a = Take -> s = 0) -> (a <> Take -> 0 < n) -> s + n <= count L c ->
  map_range s (s + n) (Some (map i_rep c)) (if hd_ then Some (map i_def c) else None) L mv (vcount c) a =
  Some ((vcount (before a s c), vcount (before a s c) + vcount (chosen a s n c)), (length (before a s c), length (before a s c) + length (chosen a s n c))).
Proof.
  intros c hd_ a s n VP VR TD ND AB TK NZ B. rewrite <- (tl_split_length L c) in B. destruct (split_pieces L c) as [SP SR]. assert (CE := split_concat L c). rewrite split_eta in CE. cbn [concat] in CE. unfold before, chosen in *.
  set (P := hd [] (split L c)) in *. set (Rs := tl (split L c)) in *. clearbody P Rs. subst c.
  assert (VPL := vcount_vis P VP). assert (VT := vi_count). 
  (* the start *)
  set (start := match a with Absent => (Some 0, 0) | _ => match (if hd_ then Some (map i_def (P ++ concat Rs)) else None) with Some d => preamble_def L mv 0 0 (combine (map i_rep (P ++ concat Rs)) d) | None => (position L 0 (map i_rep (P ++ concat Rs)), match position L 0 (map i_rep (P ++ concat Rs)) with Some i => i | None => length (map i_rep (P ++ concat Rs)) end) end end).
  assert (ST : start = match Rs with [] => match a with Absent => (Some 0, 0) | _ => (None, length P) end | _ => (Some (length P), length P) end).
  { subst start. assert (HP : forall x t, Rs = x :: t -> exists y z, concat Rs = y :: z /\ st L y = true) by (intros x t ->; inversion SR as [|? ? S1 S2]; subst; destruct x as [|y x]; [destruct S1|]; destruct S1; cbn; eauto).
    assert (TP : hd_ = true -> Forall told P) by (intros H; specialize (TD H); apply Forall_app in TD as [TD _]; exact TD).
    destruct a; [| |rewrite AB by reflexivity; destruct Rs; reflexivity].
    - destruct hd_; [rewrite combine_lv, preamble_pos by (auto; apply TP; reflexivity)|rewrite !position_pos by auto]; (destruct Rs as [|x t]; [cbn [concat]; rewrite ?VPL, ?app_nil_r, ?map_length; reflexivity|destruct (HP x t eq_refl) as [y [z [E1 E2]]]; rewrite E1, E2, ?VPL; reflexivity]).
    - destruct hd_; [rewrite combine_lv, preamble_pos by (auto; apply TP; reflexivity)|rewrite !position_pos by auto]; (destruct Rs as [|x t]; [cbn [concat]; rewrite ?VPL, ?app_nil_r, ?map_length; reflexivity|destruct (HP x t eq_refl) as [y [z [E1 E2]]]; rewrite E1, E2, ?VPL; reflexivity]). }
  unfold map_range. fold start. rewrite ST. clear ST start.
  destruct (Nat.eq_dec (length Rs) 0) as [RZ|RZ].
  { apply length_zero_iff_nil in RZ. subst Rs. cbn [length concat] in *. assert (n = 0) by lia. assert (s = 0) by lia. subst n s. destruct a; [|specialize (NZ ltac:(discriminate)); lia|specialize (NZ ltac:(discriminate)); lia].
    rewrite ?app_nil_r. cbn [firstn skipn concat]. rewrite ?app_nil_r, map_length. reflexivity. }
  destruct Rs as [|R0 Rs']; [cbn in RZ; lia|]. clear RZ. set (Rs := R0 :: Rs') in *.
  destruct (Nat.eq_dec n 0) as [->|NP].
  { destruct a; [|specialize (NZ ltac:(discriminate)); lia|specialize (NZ ltac:(discriminate)); lia]. rewrite TK by reflexivity. cbn [Nat.add Nat.eqb firstn skipn concat]. rewrite app_nil_r, VPL. unfold vcount. cbn [filter length Nat.add]. reflexivity. }
  rewrite (proj2 (Nat.eqb_neq s (s + n))) by lia. rewrite (proj2 (Nat.ltb_ge (s + n) s)) by lia.
  (* the rest *)
  assert (SKR : forall A (f : item -> A), skipn (length P) (map f (P ++ concat Rs)) = map f (concat Rs)) by (intros A f; rewrite map_app; rewrite <- (map_length f P); apply skip_front).
  rewrite SKR. set (A0 := concat (firstn s Rs)) in *. set (S0 := concat (firstn n (skipn s Rs))) in *.
  assert (LA : forall l, length l = vcount l + icount l) by (intros l; rewrite VT; reflexivity).
  assert (CC := concat_cut Rs s n). fold A0 S0 in CC.
  assert (FIN : forall e1 e2, e1 = vcount A0 + vcount S0 -> e2 = length A0 + length S0 ->
     Some ((match a with Skip => (vcount A0 + length P, e1 + length P) | Take => (vcount A0, e1 + length P) | Absent => (vcount A0, e1) end), (match a with Skip => (length A0 + length P, e2 + length P) | Take => (length A0, e2 + length P) | Absent => (length A0, e2) end)) =
     Some (vcount (match a with Take => [] | _ => P ++ A0 end), vcount (match a with Take => [] | _ => P ++ A0 end) + vcount (match a with Take => P | _ => [] end ++ S0),
          (length (match a with Take => [] | _ => P ++ A0 end), length (match a with Take => [] | _ => P ++ A0 end) + length (match a with Take => P | _ => [] end ++ S0)))).
  { intros e1 e2 -> ->. destruct a; cbn [app length].
    - assert (A0 = []) by (subst A0; rewrite TK by reflexivity; reflexivity). replace A0 with (@nil item) by auto. rewrite vcount_app, app_length, VPL. unfold vcount. cbn [filter length]. pe.
    - rewrite !vcount_app, !app_length, VPL. pe.
    - assert (PZ := AB eq_refl). rewrite PZ. cbn [app]. reflexivity. }
  (* pieces around the start *)
  assert (SN : s < length Rs) by lia.
  destruct (skipn s Rs) as [|r rest] eqn:SK; [apply (f_equal (@length _)) in SK; rewrite skipn_length in SK; cbn [length] in SK; lia|].
  assert (RE : Rs = firstn s Rs ++ r :: rest) by (rewrite <- SK; symmetry; apply firstn_skipn).
  assert (SRr : row_start L r /\ Forall (row_start L) rest /\ Forall (row_start L) (firstn s Rs)) by (rewrite RE in SR; apply Forall_app in SR as [Q1 Q2]; inversion Q2; subst; auto).
  assert (VRr : inner_vis r /\ Forall inner_vis rest /\ Forall inner_vis (firstn s Rs)) by (rewrite RE in VR; apply Forall_app in VR as [Q1 Q2]; inversion Q2; subst; auto).
  destruct SRr as (R1 & R2 & R3). destruct VRr as (V1 & V2 & V3). destruct r as [|x t]; [destruct R1|]. destruct R1 as [RX RT]. unfold inner_vis in V1. cbn [tl] in V1.
  assert (CR : concat Rs = A0 ++ x :: t ++ concat rest) by (rewrite RE at 1; rewrite concat_app; reflexivity).
  assert (S0E : S0 = x :: t ++ concat (firstn (n - 1) rest)) by (subst S0; destruct n as [|n]; [lia|]; rewrite firstn_cons; cbn [concat]; replace (S n - 1) with n by lia; reflexivity).
  assert (LR : length Rs = s + S (length rest)) by (rewrite RE at 1; rewrite app_length, firstn_length, Nat.min_l by lia; reflexivity).
  assert (HT : forall A (f : item -> A), skipn (length A0 + 1) (map f (concat Rs)) = map f (t ++ concat rest)).
  { intros A f. rewrite CR, map_app. cbn [map]. rewrite <- skipn_skipn'. rewrite <- (map_length f A0), skip_front. reflexivity. }
  assert (FN : n - 1 < length rest \/ (n - 1 = length rest /\ firstn (n - 1) rest = rest)) by (destruct (Nat.lt_ge_cases (n - 1) (length rest)); [left; auto|right; split; [lia|apply firstn_all2; lia]]).
  destruct hd_.
  - rewrite map_length, app_length, (proj2 (Nat.ltb_ge _ _)) by lia. rewrite SKR, combine_lv. specialize (TD eq_refl). apply Forall_app in TD as [_ TD].
    assert (LD : (if s =? 0 then Some (None, 0, 0) else omap (fun d0 => lead L mv s 0 0 (if d0 <=? mv then 0 else 1) (tl (lv (concat Rs)))) (nth_error (map i_def (concat Rs)) 0)) = Some (if s =? 0 then None else Some (length A0), s, icount A0)).
    { destruct (Nat.eqb_spec s 0) as [->|SZ]; [subst A0; reflexivity|].
      inversion SR as [|? ? Q1 Q2]; subst. inversion VR as [|? ? Q3 Q4]; subst. destruct R0 as [|y u]; [destruct Q1|]. destruct Q1 as [Q1 Q1']. unfold inner_vis in Q3. cbn [tl] in Q3.
      unfold Rs in TD. cbn [concat app] in TD. inversion TD as [|? ? T1 T2]; subst. apply Forall_app in T2 as [T2 T3].
      unfold Rs at 1 2. cbn [concat app map nth_error omap lv tl]. f_equal. fold (lv (u ++ concat Rs')). rewrite lead_tail by exact Q1'.
      replace s with (0 + (s - 1) + 1) at 1 by lia. rewrite lead_rows; auto; [|subst Rs; cbn [length] in SN; lia].
      assert (FA : firstn s ((y :: u) :: Rs') = (y :: u) :: firstn (s - 1) Rs') by (destruct s; [lia|]; cbn [firstn]; rewrite Nat.sub_succ, Nat.sub_0_r; reflexivity). subst A0. unfold Rs. rewrite FA. cbn [concat]. rewrite icount_app, app_length, (icount_row y u T1 Q3). cbn [length]. pe. }
    rewrite LD. cbn [obind]. clear LD.
    assert (NS : (match (if s =? 0 then None else Some (length A0)) with Some i => (i - icount A0, i) | None => (0, 0) end) = (vcount A0, length A0)).
    { destruct (Nat.eqb_spec s 0) as [->|SZ]; [subst A0; reflexivity|]. f_equal. rewrite LA. lia. }
    rewrite NS. clear NS. assert (ND0 : nth_error (map i_def (concat Rs)) (length A0) = Some (i_def x)) by (rewrite CR, map_app, nth_error_app2 by (rewrite map_length; lia); rewrite map_length, Nat.sub_diag; reflexivity).
    rewrite ND0. cbn [obind]. rewrite map_length. rewrite (proj2 (Nat.ltb_ge _ _)) by (rewrite CR, app_length; cbn [length]; lia). rewrite !HT, combine_lv, tail_tail by exact RT.
    rewrite CR in TD. apply Forall_app in TD as [_ TD]. inversion TD as [|? ? T1 T2]; subst. apply Forall_app in T2 as [T2 T3].
    replace (s + n + 1) with (s + 1 + (n - 1) + 1) by lia. rewrite tail_rows by auto. 
    assert (IC : forall l, icount (x :: t ++ l) = (if i_def x <=? mv then 0 else 1) + icount l) by (intros l; change (x :: t ++ l) with ((x :: t) ++ l); rewrite icount_app, icount_row by auto; reflexivity).
    assert (LL := LA S0). rewrite S0E in LL. rewrite IC in LL. cbn [length] in LL. rewrite app_length in LL. assert (LA0 := LA A0).
    destruct FN as [FN|[FN FE]].
    + rewrite (proj2 (Nat.ltb_lt _ _) FN). apply FIN; rewrite S0E; cbn [length]; rewrite ?app_length; lia.
    + rewrite FE in *. rewrite (proj2 (Nat.ltb_ge _ _)) by lia. apply FIN; rewrite S0E, CR, app_length; cbn [length]; rewrite ?app_length; lia.
  - specialize (ND eq_refl). assert (ND' := ND). apply Forall_app in ND' as [_ ND']. rewrite CR in ND'. apply Forall_app in ND' as [N1 N2].
    assert (VA : vcount A0 = length A0) by (apply vcount_vis; exact N1).
    assert (VS : vcount S0 = length S0) by (apply vcount_vis; rewrite CC in ND; apply Forall_app in ND as [_ ND]; apply Forall_app in ND as [_ ND]; apply Forall_app in ND as [ND _]; exact ND).
    assert (FIN2 : forall e, e = length A0 + length S0 ->
       Some ((match a with Skip => (length A0 + length P, e + length P) | Take => (length A0, e + length P) | Absent => (length A0, e) end), (match a with Skip => (length A0 + length P, e + length P) | Take => (length A0, e + length P) | Absent => (length A0, e) end)) =
       Some (vcount (match a with Take => [] | _ => P ++ A0 end), vcount (match a with Take => [] | _ => P ++ A0 end) + vcount (match a with Take => P | _ => [] end ++ S0),
            (length (match a with Take => [] | _ => P ++ A0 end), length (match a with Take => [] | _ => P ++ A0 end) + length (match a with Take => P | _ => [] end ++ S0)))).
    { intros e EE. rewrite <- (FIN e e) by lia. rewrite VA. reflexivity. }
    assert (LD : (if s =? 0 then (None, 0) else walk_rep L s 0 0 (tl (map i_rep (concat Rs)))) = (if s =? 0 then None else Some (length A0), s)).
    { destruct (Nat.eqb_spec s 0) as [->|SZ]; [reflexivity|].
      inversion SR as [|? ? Q1 Q2]; subst. destruct R0 as [|y u]; [destruct Q1|]. destruct Q1 as [Q1 Q1'].
      unfold Rs at 1. cbn [concat app map tl]. rewrite walk_tail by exact Q1'.
      replace s with (0 + (s - 1) + 1) at 1 by lia. rewrite walk_rows by auto. rewrite (proj2 (Nat.ltb_lt _ _)) by (subst Rs; cbn [length] in SN; lia).
      assert (FA : firstn s ((y :: u) :: Rs') = (y :: u) :: firstn (s - 1) Rs') by (destruct s; [lia|]; cbn [firstn]; rewrite Nat.sub_succ, Nat.sub_0_r; reflexivity). subst A0. unfold Rs. rewrite FA. cbn [concat]. rewrite app_length. cbn [length]. pe. }
    rewrite LD. clear LD. assert (NS : match (if s =? 0 then None else Some (length A0)) with Some i => i | None => 0 end = length A0) by (destruct (Nat.eqb_spec s 0) as [->|SZ]; [subst A0; reflexivity|reflexivity]).
    rewrite NS. clear NS. rewrite (proj2 (Nat.ltb_ge (length (map i_rep (concat Rs))) (length A0 + 1))) by (rewrite map_length, CR, app_length; cbn [length]; lia). rewrite map_length. rewrite HT, walk_tail by exact RT.
    assert (VC : vcount (P ++ concat Rs) = length P + length (concat Rs)) by (rewrite vcount_vis by exact ND; apply app_length). rewrite VC.
    assert (LC : length (concat Rs) = length A0 + S (length t + length (concat rest))) by (rewrite CR, app_length; cbn [length]; rewrite app_length; reflexivity).
    assert (GE : forall l, Forall (row_start L) l -> length l <= length (concat l)) by (intros l F; induction F as [|r l Q F IH]; [cbn; lia|]; destruct r as [|y r]; [destruct Q|]; cbn [concat length]; rewrite app_length; cbn [length]; lia).
    assert (G1 := GE rest R2). assert (G2 := GE _ R3). fold A0 in G2. rewrite firstn_length, Nat.min_l in G2 by lia.
    destruct (Nat.ltb_spec (s + n) (length P + length (concat Rs))) as [LT|LT].
    + replace (s + n) with (s + (n - 1) + 1) by lia. rewrite walk_rows by auto. cbn [fst].
      destruct FN as [FN|[FN FE]].
      * rewrite (proj2 (Nat.ltb_lt _ _) FN). cbn [fst obind]. apply FIN2; rewrite S0E; cbn [length]; rewrite ?app_length; lia.
      * rewrite FE in *. rewrite (proj2 (Nat.ltb_ge _ _)) by lia. cbn [fst obind]. apply FIN2; rewrite S0E; cbn [length]; rewrite ?app_length; lia.
    + cbn [obind]. destruct FN as [FN|[FN FE]]; [lia|]. rewrite FE in *. apply FIN2; rewrite S0E; cbn [length]; rewrite ?app_length; lia.
Qed.
End Map.
