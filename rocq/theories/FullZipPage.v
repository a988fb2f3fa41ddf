(* Pages of the full-zip layout: what is written, and reading it for values of fixed width. *)
From Coq Require Import List Arith NArith Bool Lia.
From Verif Require Import Lib SerdeModel SerdeProofs RepDefModel RepDefProofs FullZipModel FullZipProofs FullZipRead.
Import ListNotations.
Local Open Scope nat_scope.

(* ---- the pages ---- *)
Definition total_levels (ms : list meaning) : nat := sumn (map num_def_levels ms).
(* no nullable struct contains a list *)
Definition no_struct_above (ms : list meaning) : Prop := forall a m b, ms = a ++ m :: b -> m_list m = true -> ~ In NullableItem b.
Definition has_lists (ms : list meaning) : bool := 0 <? lists ms.
(* a row of a page with [L] layers of lists starts with the repetition level [L] and has no other *)
Definition row_ok (L : nat) (r : list item) : Prop := match r with it :: t => i_rep it = L /\ Forall (fun x => i_rep x < L) t | [] => False end.
Definition item_ok (ms : list meaning) (hd : bool) (it : item) : Prop :=
  i_def it <= total_levels ms /\ is_some (i_val it) = (i_def it <=? inner_levels ms) /\ (hd = false -> i_def it = 0).
(* rows of a page; [hd] tells if it has definition levels; without lists a row is [ipr] items *)
Definition page_ok (ms : list meaning) (hd : bool) (ipr : nat) (rows : list (list item)) : Prop :=
  rows <> [] /\ 0 < ipr /\ no_struct_above ms /\ Forall (item_ok ms hd) (concat rows) /\
  (if has_lists ms then ipr = 1 /\ Forall (row_ok (lists ms)) rows else Forall (fun r => length r = ipr) rows /\ Forall (fun it => i_rep it = 0) (concat rows)) /\
  (N.of_nat (total_levels ms + lists ms) < 32768)%N /\ (has_lists ms = true -> hd = false -> lists ms < 256) /\
  (has_lists ms = false -> hd = true -> total_levels ms < 256 /\ Exists (fun it => 0 < i_def it) (concat rows)).
Definition page_levels (ms : list meaning) (hd : bool) (rows : list (list item)) : levels :=
  {| r_rep := if has_lists ms then Some (map i_rep (concat rows)) else None; r_def := if hd then Some (map i_def (concat rows)) else None; r_meaning := ms |}.
Definition page_vals (rows : list (list item)) : list (list N) := flat_map vals_of (concat rows).
Definition page_nulls (rows : list (list item)) : bool := existsb (fun it => 0 <? i_def it) (concat rows).
(* what should be read of rows *)
Definition batch_of (ms : list meaning) (nulls : bool) (us : list (list item)) : decoded :=
  {| o_rep := if has_lists ms then Some (map i_rep (concat us)) else None; o_def := if nulls then Some (map i_def (concat us)) else None; o_vals := flat_map vals_of (concat us) |}.

(* ---- levels ---- *)
Lemma maxl_ge : forall l x, In x l -> x <= maxl l.
Proof. induction l as [|y l IH]; intros x J; [destruct J|]. cbn. destruct J as [->|J]; [lia|]. specialize (IH x J). unfold maxl in IH. lia. Qed.
Lemma maxl_le : forall l m, Forall (fun x => x <= m) l -> maxl l <= m.
Proof. intros l m F. induction F as [|x l X F IH]; cbn; [lia|]. unfold maxl in IH. lia. Qed.
Lemma vis_eq : forall ms, no_struct_above ms -> reader_vis ms = N.of_nat (inner_levels ms).
Proof.
  intros ms H. unfold reader_vis. f_equal. induction ms as [|m t IH]; [reflexivity|]. cbn [filter inner_levels]. destruct (m_list m) eqn:ML; cbn [negb].
  - assert (NI := H [] m t eq_refl ML). clear -NI. induction t as [|x t IH]; [reflexivity|]. cbn [filter]. destruct (m_list x) eqn:X; cbn [negb]; [apply IH; intros J; apply NI; right; exact J|]. cbn [map sumn fold_right]. unfold sumn in *. cbn [fold_right]. rewrite IH by (intros J; apply NI; right; exact J). destruct x; try discriminate X; [reflexivity|]. exfalso. apply NI. left. reflexivity.
  - cbn [map]. change (sumn (num_def_levels m :: map num_def_levels (filter (fun m0 => negb (m_list m0)) t))) with (num_def_levels m + sumn (map num_def_levels (filter (fun m0 => negb (m_list m0)) t))). rewrite IH; [reflexivity|]. intros a x b E. apply (H (m :: a) x b). now rewrite E.
Qed.
Lemma inner_nolist : forall ms, has_lists ms = false -> inner_levels ms = total_levels ms.
Proof.
  intros ms H. unfold has_lists, lists in H. apply Nat.ltb_ge in H. unfold total_levels. induction ms as [|m t IH]; [reflexivity|]. cbn [filter] in H. cbn [inner_levels map]. destruct (m_list m); [cbn in H; lia|]. rewrite IH by exact H. reflexivity.
Qed.
Lemma writer_vis_lists : forall ms, writer_vis ms = if has_lists ms then N.of_nat (inner_levels ms) else 65535%N.
Proof.
  intros ms. unfold writer_vis. assert (Q : existsb m_list ms = has_lists ms).
  { unfold has_lists, lists. induction ms as [|m t IH]; [reflexivity|]. cbn [existsb filter]. destruct (m_list m); [reflexivity|]. exact IH. }
  rewrite Q. destruct (has_lists ms); [|reflexivity]. f_equal.
Qed.

Lemma one_byte : forall a b, (N.of_nat a < 32768)%N -> (N.of_nat b < 32768)%N -> a = 0 \/ b = 0 -> a < 256 -> b < 256 -> word_size (rd_width (N.of_nat a) + rd_width (N.of_nat b)) = 1.
Proof.
  intros a b A B Z A' B'. rewrite !width_size by assumption. assert (QA : (N.size (N.of_nat a) <= 8)%N) by (apply size_le; change (2 ^ 8)%N with 256%N; lia). assert (QB : (N.size (N.of_nat b) <= 8)%N) by (apply size_le; change (2 ^ 8)%N with 256%N; lia).
  unfold word_size. rewrite (proj2 (N.leb_le _ _)); [reflexivity|]. destruct Z as [->| ->]; cbn [N.of_nat N.size]; lia.
Qed.

Section Page.
Context (ms : list meaning) (hd : bool) (ipr : nat) (rows : list (list item)) (OK : page_ok ms hd ipr rows).
Let hr := has_lists ms.
Let L := lists ms.
Let mr := if hr then L else 0.
Let md := maxl (map i_def (concat rows)).
Let wd := word_of hr hd mr md (writer_vis ms).
Let p := parser_of hr hd mr md.
Let items := concat rows.

Lemma row_nonempty : forall r, In r rows -> r <> [].
Proof.
  intros r J. destruct OK as (_ & P & _ & _ & Q & _). destruct (has_lists ms).
  - destruct Q as [_ Q]. rewrite Forall_forall in Q. specialize (Q r J). destruct r; [destruct Q|discriminate].
  - destruct Q as [Q _]. rewrite Forall_forall in Q. specialize (Q r J). destruct r; [cbn in Q; lia|discriminate].
Qed.
Lemma items_nonempty : items <> [].
Proof.
  assert (RN := row_nonempty). subst items. destruct OK as (P & _). destruct rows as [|r t]; [congruence|]. cbn [concat]. intros H. apply app_eq_nil in H as [H _]. revert H. apply RN. left. reflexivity.
Qed.
Lemma rep_le : forall it, In it items -> i_rep it <= mr.
Proof.
  intros it J. destruct OK as (_ & _ & _ & _ & Q & _). subst mr hr items. destruct (has_lists ms).
  - destruct Q as [_ Q]. apply in_concat in J as [r [J1 J2]]. rewrite Forall_forall in Q. specialize (Q r J1). destruct r as [|x t]; [destruct J2|]. destruct Q as [Q1 Q2]. destruct J2 as [->|J2]; [subst L; lia|]. rewrite Forall_forall in Q2. specialize (Q2 it J2). subst L. lia.
  - destruct Q as [_ Q]. rewrite Forall_forall in Q. rewrite (Q it J). lia.
Qed.
Lemma def_le : forall it, In it items -> i_def it <= md.
Proof. intros it J. subst md. apply maxl_ge. apply in_map. exact J. Qed.
Lemma md_total : md <= total_levels ms.
Proof. subst md. apply maxl_le. apply Forall_map. destruct OK as (_ & _ & _ & F & _). eapply Forall_impl; [|exact F]. intros it [H _]. exact H. Qed.
Lemma md_hd : hd = false -> md = 0.
Proof.
  intros H. assert (Q : md <= 0); [|lia]. subst md. apply maxl_le. apply Forall_map. destruct OK as (_ & _ & _ & F & _). eapply Forall_impl; [|exact F]. intros it (_ & _ & Z). rewrite Z by exact H. lia.
Qed.
Lemma md_nulls : (0 <? md) = page_nulls rows.
Proof.
  unfold page_nulls. subst md. destruct (existsb _ (concat rows)) eqn:E.
  - apply existsb_exists in E as [it [J X]]. apply Nat.ltb_lt in X. apply Nat.ltb_lt. assert (Q := maxl_ge (map i_def (concat rows)) _ (in_map i_def _ _ J)). lia.
  - apply Nat.ltb_ge. apply maxl_le. apply Forall_map. apply Forall_forall. intros it J. assert (Q : ~ (0 < i_def it)); [|lia]. intros X. assert (existsb (fun it => 0 <? i_def it) (concat rows) = true); [|congruence]. apply existsb_exists. exists it. split; [exact J|]. now apply Nat.ltb_lt.
Qed.
Lemma mr_max : hr = true -> maxl (map i_rep items) = L.
Proof.
  intros H. assert (A : maxl (map i_rep items) <= L) by (apply maxl_le; apply Forall_map; apply Forall_forall; intros it J; assert (Q := rep_le it J); subst mr; rewrite H in Q; exact Q).
  assert (B : L <= maxl (map i_rep items)); [|lia]. destruct OK as (P & _ & _ & _ & Q & _). subst hr items. rewrite H in Q. destruct Q as [_ Q]. destruct rows as [|r t]; [congruence|]. inversion Q as [|? ? Q1 _]; subst. destruct r as [|it r]; [destruct Q1|]. destruct Q1 as [Q1 _]. subst L. rewrite <- Q1. apply maxl_ge. left. reflexivity.
Qed.
Lemma level_bounds : levels_ok hr hd mr md.
Proof.
  assert (MT := md_total). assert (MZ := md_hd). assert (NU := md_nulls). destruct OK as (_ & _ & _ & _ & _ & B & O & T). unfold levels_ok. subst mr hr L. destruct (has_lists ms) eqn:HL.
  - assert (0 < lists ms) by (apply Nat.ltb_lt; exact HL). split; [lia|]. split; [lia|]. split; [lia|]. split; [destruct hd; auto|]. split; [intros _; apply O; reflexivity|discriminate].
  - split; [reflexivity|]. split; [lia|]. split; [reflexivity|]. split; [destruct hd; auto|]. split; [discriminate|]. intros _ HD. destruct (T eq_refl HD) as [X1 X2]. split; [|lia].
    apply Nat.ltb_lt. rewrite NU. unfold page_nulls. apply existsb_exists. apply Exists_exists in X2 as [it [J X]]. exists it. split; [exact J|now apply Nat.ltb_lt].
Qed.
Lemma vis_same : forall it, In it items -> hr && hd = true -> is_some (i_val it) = (i_def it <=? N.to_nat (writer_vis ms)).
Proof.
  intros it J H. apply andb_true_iff in H as [H _]. rewrite writer_vis_lists. fold hr. rewrite H, Nnat.Nat2N.id. destruct OK as (_ & _ & _ & F & _). rewrite Forall_forall in F. apply F. exact J.
Qed.
Lemma all_present : hr && hd = false -> forall it, In it items -> i_val it <> None.
Proof.
  intros H it J E. destruct OK as (_ & _ & _ & F & _). rewrite Forall_forall in F. destruct (F it J) as (D & V & Z). rewrite E in V. cbn in V. symmetry in V. apply Nat.leb_gt in V. destruct hr eqn:HR.
  - cbn [andb] in H. rewrite Z in V by exact H. lia.
  - rewrite inner_nolist in V by exact HR. lia.
Qed.
(* every item is shown when it has a value *)
Lemma items_shown : Forall (shown wd) items.
Proof.
  apply Forall_forall. intros it J. unfold shown. destruct (word_read hr hd mr md (writer_vis ms) it level_bounds (rep_le it J) (def_le it J)) as (_ & _ & _ & _ & V & _). unfold wd. rewrite V. destruct (hr && hd) eqn:H; [symmetry; apply vis_same; auto|]. assert (Q := all_present H it J). destruct (i_val it); [reflexivity|congruence].
Qed.
Definition lvl_rep (it : item) : list nat := if hr then [i_rep it] else [].
Definition lvl_def (it : item) : list nat := if 0 <? md then [i_def it] else [].
Lemma item_reads : forall it, In it items ->
  (forall rest, parse p (fst (wd it) ++ rest) = Some (lvl_rep it, lvl_def it)) /\ (forall rest, parse_desc p (fst (wd it) ++ rest) (reader_rep ms) (reader_vis ms) = Some (snd (wd it))) /\
  length (fst (wd it)) = p_bytes p /\ shown wd it /\ match lvl_def it with x :: _ => (N.of_nat x <=? reader_vis ms)%N | [] => true end = is_some (i_val it).
Proof.
  intros it J. destruct (word_read hr hd mr md (writer_vis ms) it level_bounds (rep_le it J) (def_le it J)) as (W1 & W2 & W3 & W4 & W5 & W6).
  assert (SH : shown wd it) by (assert (Q := items_shown); rewrite Forall_forall in Q; apply Q; exact J).
  assert (LV := level_bounds). destruct LV as (_ & LB & LM & LD & _ & _). assert (DM := def_le it J).
  destruct OK as (_ & _ & NS & F & _). rewrite Forall_forall in F. destruct (F it J) as (D & V & Z). assert (VE := vis_eq ms NS).
  split; [exact W1|]. split; [|split; [exact W3|split; [exact SH|]]].
  - intros rest. unfold p, wd. replace (reader_rep ms) with (N.of_nat mr) by (unfold reader_rep; fold (lists ms); fold L; subst mr; destruct hr eqn:HR; [reflexivity|]; unfold hr, has_lists in HR; apply Nat.ltb_ge in HR; fold L in HR; replace L with 0 by lia; reflexivity).
    apply W2. rewrite VE, writer_vis_lists, Nnat.Nat2N.id. fold hr. destruct hr eqn:HR; [now rewrite Nnat.Nat2N.id|]. rewrite <- V. rewrite inner_nolist in V by exact HR. rewrite V. rewrite (proj2 (Nat.leb_le _ _) D). symmetry. apply Nat.leb_le. lia.
  - rewrite VE. unfold lvl_def. destruct (Nat.ltb_spec 0 md) as [Q|Q].
    + rewrite V. destruct (Nat.leb_spec (i_def it) (inner_levels ms)); [apply N.leb_le|apply N.leb_gt]; lia.
    + rewrite V. symmetry. apply Nat.leb_le. lia.
Qed.
Lemma lvl_rep_map : forall l, flat_map lvl_rep l = if hr then map i_rep l else [].
Proof. intros l. unfold lvl_rep. destruct hr; [|induction l; auto]. induction l as [|x l IH]; [reflexivity|]. cbn. now rewrite <- IH. Qed.
Lemma lvl_def_map : forall l, flat_map lvl_def l = if page_nulls rows then map i_def l else [].
Proof. intros l. unfold lvl_def. rewrite md_nulls. destruct (page_nulls rows); [|induction l; auto]. induction l as [|x l IH]; [reflexivity|]. cbn. now rewrite <- IH. Qed.

(* ---- the control words of the page ---- *)
Let c (n : nat) := build_cw (option_map (map N.of_nat) (r_rep (page_levels ms hd rows))) (N.of_nat mr) (option_map (map N.of_nat) (r_def (page_levels ms hd rows))) (N.of_nat md) (writer_vis ms) n.
Lemma page_words : forall n, (hr || hd = false -> n = length items) -> cw_all (c n) = Some (map wd items).
Proof.
  intros n LN. assert (LV := level_bounds). destruct LV as (L1 & L2 & L3 & L4 & L5 & L6). unfold c, page_levels. cbn [r_rep r_def]. fold hr items.
  assert (WE : wd = word_of hr hd mr md (writer_vis ms)) by reflexivity. rewrite WE. clear WE. unfold word_of. destruct hr eqn:HR; destruct hd eqn:HD; cbn [option_map build_cw cw_all].
  - f_equal. clear. induction items as [|it l IH]; [reflexivity|]. cbn [map combine]. rewrite IH. reflexivity.
  - rewrite L4 in *. rewrite one_byte by (auto; lia). cbn [Nat.eqb]. rewrite !map_map. reflexivity.
  - destruct (L6 eq_refl eq_refl). rewrite L3 in *. rewrite one_byte by (auto; lia). cbn [Nat.eqb]. rewrite !map_map. reflexivity.
  - rewrite LN by reflexivity. f_equal. clear. induction items as [|it l IH]; [reflexivity|]. cbn [map length repeat]. rewrite IH. reflexivity.
Qed.
Lemma page_bits : forall n, bits_of (c n) (N.of_nat mr) (N.of_nat md) = (rd_width (N.of_nat mr), rd_width (N.of_nat md)).
Proof.
  intros n. assert (LV := level_bounds). destruct LV as (_ & _ & L3 & L4 & _ & _). unfold c, page_levels. cbn [r_rep r_def]. fold hr items. destruct hr; destruct hd; cbn [option_map build_cw bits_of]; [reflexivity| | |].
  - rewrite L4. cbn [N.of_nat rd_width N.eqb]. rewrite N.add_0_r. reflexivity.
  - rewrite L3. reflexivity.
  - rewrite L3, L4. reflexivity.
Qed.
Lemma page_bytes : forall n, cw_bytes (c n) = p_bytes p.
Proof.
  intros n. assert (LV := level_bounds). destruct LV as (L1 & L2 & L3 & L4 & L5 & L6). unfold c, page_levels, p, parser_of, new_parser. cbn [r_rep r_def p_bytes]. fold hr items.
  assert (PM : forall x, (N.of_nat x < 32768)%N -> (0 <? rd_width (N.of_nat x))%N = (0 <? x)).
  { intros x X. rewrite width_size by exact X. destruct (Nat.ltb_spec 0 x) as [Q|Q]; [apply N.ltb_lt; apply size_pos; lia|]. replace x with 0 by lia. reflexivity. }
  rewrite !PM by assumption. destruct hr; destruct hd; cbn [option_map build_cw cw_bytes].
  - rewrite (proj2 (Nat.ltb_lt _ _) L3). reflexivity.
  - rewrite (proj2 (Nat.ltb_lt _ _) L3). reflexivity.
  - rewrite (proj2 (Nat.ltb_lt 0 md)) by (apply L6; reflexivity). rewrite orb_true_r. reflexivity.
  - rewrite L3, L4. reflexivity.
Qed.
Lemma page_has_rep : forall n, cw_has_rep (c n) = hr.
Proof.
  intros n. assert (LV := level_bounds). destruct LV as (L1 & L2 & L3 & L4 & L5 & L6). unfold c, page_levels. cbn [r_rep r_def]. fold hr items. destruct hr; destruct hd; cbn [option_map build_cw cw_has_rep]; try reflexivity.
  apply N.ltb_lt. rewrite width_size by exact L1. assert (Q := size_pos (N.of_nat mr) ltac:(lia)). lia.
Qed.
Lemma p_rep_eq : p_rep p = hr.
Proof.
  assert (LV := level_bounds). destruct LV as (L1 & L2 & L3 & _). unfold p, parser_of, new_parser. cbn [p_rep]. rewrite width_size by exact L1. destruct hr; [apply N.ltb_lt; apply size_pos; lia|]. rewrite L3. reflexivity.
Qed.
Lemma p_bytes_pos : hr = true \/ 0 < md -> 1 <= p_bytes p <= 4.
Proof.
  intros H. assert (LV := level_bounds). destruct LV as (L1 & L2 & L3 & _). unfold p, parser_of, new_parser. cbn [p_bytes]. rewrite !width_size by assumption.
  replace ((0 <? N.size (N.of_nat mr)) || (0 <? N.size (N.of_nat md)))%N with true; [unfold word_size; destruct (_ <=? 8)%N; [lia|destruct (_ <=? 16)%N; lia]|].
  symmetry. apply orb_true_iff. destruct H as [H|H]; [left; rewrite H in L3; apply N.ltb_lt; apply size_pos; lia|right; apply N.ltb_lt; apply size_pos; lia].
Qed.
Lemma p_bytes_zero : hr = false -> md = 0 -> p_bytes p = 0.
Proof. intros H M. unfold p, parser_of, new_parser. cbn [p_bytes]. subst mr. rewrite H, M. reflexivity. Qed.
Lemma p_bytes_le : p_bytes p <= 4.
Proof. destruct (Bool.bool_dec hr true) as [H|H]; [apply p_bytes_pos; auto|]. apply not_true_is_false in H. destruct (Nat.eq_dec md 0) as [M|M]; [rewrite p_bytes_zero by auto; lia|]. apply p_bytes_pos. right. lia. Qed.
Lemma rows_start : hr = true -> Forall (starts_row wd) rows.
Proof.
  intros H. destruct OK as (_ & _ & _ & _ & Q & _). unfold hr in H. rewrite H in Q. destruct Q as [_ Q]. apply Forall_forall. intros r J. rewrite Forall_forall in Q. assert (Q1 := Q r J). destruct r as [|it t]; [destruct Q1|]. destruct Q1 as [Q1 Q2].
  assert (IN : forall x, In x (it :: t) -> In x items) by (intros x X; apply in_concat; exists (it :: t); auto).
  assert (NW : forall x, In x items -> d_new (snd (wd x)) = (i_rep x =? L)).
  { intros x X. destruct (word_read hr hd mr md (writer_vis ms) x level_bounds (rep_le x X) (def_le x X)) as (_ & _ & _ & W & _). unfold wd. rewrite W. unfold hr. rewrite H. subst mr. unfold hr. rewrite H. reflexivity. }
  split; [rewrite NW by (apply IN; left; reflexivity); apply Nat.eqb_eq; exact Q1|]. apply Forall_forall. intros x X. rewrite NW by (apply IN; right; exact X). apply Nat.eqb_neq. rewrite Forall_forall in Q2. specialize (Q2 x X). subst L. lia.
Qed.
Lemma items_new : hr = false -> forall x, In x items -> d_new (snd (wd x)) = true.
Proof. intros H x X. destruct (word_read hr hd mr md (writer_vis ms) x level_bounds (rep_le x X) (def_le x X)) as (_ & _ & _ & W & _). unfold wd. rewrite W, H. reflexivity. Qed.

(* ---- what is written ---- *)
Definition page_enc (width : option nat) : desc -> list N -> list N := match width with None => enc_fixed | Some k => enc_var k end.
Definition page_size : nat := sumn (map (@length N) (page_vals rows)) + p_bytes p * length items.
Definition index_max (width : option nat) : nat := match width with None => if hr then page_size else 0 | Some k => page_size + k * length (page_vals rows) end.
(* the rows that the repetition index knows: without lists the items *)
Definition units : list (list item) := if hr then rows else map (fun it => [it]) items.
Lemma concat_single : forall A (l : list A), concat (map (fun x => [x]) l) = l.
Proof. induction l as [|x l IH]; [reflexivity|]. cbn. now rewrite IH. Qed.
Lemma units_concat : concat units = items.
Proof. unfold units. destruct hr; [reflexivity|apply concat_single]. Qed.
Lemma units_start : Forall (starts_row wd) units.
Proof.
  unfold units. destruct (Bool.bool_dec hr true) as [H|H]; [rewrite H; apply rows_start; exact H|]. apply not_true_is_false in H. rewrite H. apply Forall_map. apply Forall_forall. intros it J. split; [apply items_new; auto|constructor].
Qed.
Lemma vals_all : hr = false -> length (page_vals rows) = length items.
Proof.
  intros H. assert (Q := all_present ltac:(rewrite H; reflexivity)). unfold page_vals. fold items. clear -Q. induction items as [|it l IH]; [reflexivity|]. cbn [flat_map length]. rewrite app_length, IH by (intros x X; apply Q; right; exact X). unfold vals_of. specialize (Q it (or_introl eq_refl)). destruct (i_val it); [reflexivity|congruence].
Qed.
Lemma written : forall width, exists z, encode_full_zip width (page_levels ms hd rows) (page_vals rows) (length rows) = Some z /\ z_parser z = p /\ z_meaning z = ms /\ z_rows z = length rows /\
  z_data z = flat_map (bytes_of wd (page_enc width)) items /\
  z_index z = (if index_max width =? 0 then None else Some (pack (index_max width) (row_starts wd (page_enc width) 0 units))).
Proof.
  intros width. unfold encode_full_zip.
  set (n := match r_rep (page_levels ms hd rows) with Some r => length r | None => length (page_vals rows) end).
  assert (LN : n = length items) by (assert (VA := vals_all); subst n; unfold page_levels; cbn [r_rep]; fold hr items; destruct hr; [apply map_length|auto]).
  assert (MR : match r_rep (page_levels ms hd rows) with Some r => N.of_nat (maxl r) | None => 0%N end = N.of_nat mr).
  { unfold page_levels. cbn [r_rep]. fold hr items. assert (Q := mr_max). subst mr. destruct hr; [rewrite Q by reflexivity|]; reflexivity. }
  assert (MD : match r_def (page_levels ms hd rows) with Some d => N.of_nat (maxl d) | None => 0%N end = N.of_nat md).
  { unfold page_levels. cbn [r_def]. assert (Q := md_hd). destruct hd; [reflexivity|]. rewrite Q by reflexivity. reflexivity. }
  rewrite MR, MD. change (r_meaning (page_levels ms hd rows)) with ms. clearbody n. subst n. fold (c (length items)).
  rewrite page_words by reflexivity. cbn [obind]. rewrite page_bits, page_bytes, page_has_rep. cbn [fst snd].
  assert (ZR := fun enc => zip_rows wd enc units 0 units_start ltac:(rewrite units_concat; exact items_shown)). rewrite units_concat in ZR.
  assert (PK : forall m l, l <> [] -> pack 0 l = [] /\ (0 < m -> exists x t, pack m l = x :: t)).
  { intros m l NE. destruct l as [|y l]; [congruence|]. split; [unfold pack; cbn [pack_width Nat.eqb]; clear; generalize (y :: l); induction l0 as [|a b IH]; [reflexivity|]; cbn [flat_map]; rewrite IH; reflexivity|].
    intros P. unfold pack. cbn [flat_map]. assert (Q := le_bytes_length (pack_width m) (trunc (pack_width m) (N.of_nat y))). assert (0 < pack_width m) by (unfold pack_width; destruct (Nat.eqb_spec m 0); [lia|]; destruct (_ <? 256)%N; [lia|]; destruct (_ <? 65536)%N; [lia|]; destruct (_ <? 4294967296)%N; lia).
    destruct (le_bytes _ _) as [|a b]; [cbn in Q; lia|]. eexists. eexists. reflexivity. }
  assert (NE : forall enc, row_starts wd enc 0 units <> []) by (intros enc E; assert (Q := row_starts_length wd enc units 0); rewrite E in Q; discriminate).
  change (flat_map vals_of items) with (page_vals rows) in ZR.
  destruct width as [k|]; cbn [page_enc index_max].
  - rewrite ZR. cbn [omap obind]. replace (sumn (map (@length N) (page_vals rows)) + p_bytes p * length items + k * length (page_vals rows)) with (page_size + k * length (page_vals rows)) by reflexivity.
    eexists. split; [reflexivity|]. cbn [z_parser z_meaning z_rows z_data z_index z_bits_rep z_bits_def]. repeat (split; [reflexivity|]).
    destruct (PK (page_size + k * length (page_vals rows)) _ (NE (enc_var k))) as [P0 P1]. destruct (Nat.eqb_spec (page_size + k * length (page_vals rows)) 0) as [Z|Z]; [rewrite Z, P0; reflexivity|]. destruct (P1 ltac:(lia)) as [x [t E]]. rewrite E. reflexivity.
  - rewrite ZR. cbn [omap obind]. replace (sumn (map (@length N) (page_vals rows)) + p_bytes p * length items) with page_size by reflexivity.
    eexists. split; [reflexivity|]. cbn [z_parser z_meaning z_rows z_data z_index z_bits_rep z_bits_def]. repeat (split; [reflexivity|]).
    destruct (PK (if hr then page_size else 0) _ (NE enc_fixed)) as [P0 P1]. destruct (Nat.eqb_spec (if hr then page_size else 0) 0) as [Z|Z]; [rewrite Z, P0; reflexivity|]. destruct (P1 ltac:(lia)) as [x [t E]]. rewrite E. reflexivity.
Qed.

(* ---- batches ---- *)
Lemma batch_eq : forall us, concat us <> [] -> FullZipRead.batch lvl_rep lvl_def us = batch_of ms (page_nulls rows) us.
Proof.
  intros us NE. unfold FullZipRead.batch, batch_of. rewrite lvl_rep_map, lvl_def_map. fold hr. destruct (concat us) as [|x t]; [congruence|]. destruct hr, (page_nulls rows); reflexivity.
Qed.
Lemma pick_In : forall A (l : list A) r x, In x (pick l r) -> In x l.
Proof. intros A l r x J. unfold pick in J. rewrite <- (firstn_skipn (fst r) l). apply in_or_app. right. rewrite <- (firstn_skipn (snd r - fst r) (skipn (fst r) l)). apply in_or_app. left. exact J. Qed.
Definition unit_of (us : list (list item)) : list (list item) := if hr then us else map (fun it => [it]) (concat us).
Lemma unit_of_concat : forall us, concat (unit_of us) = concat us.
Proof. intros us. unfold unit_of. destruct hr; [reflexivity|apply concat_single]. Qed.

Section Fix.
Context (w : nat) (WP : 0 < w) (VW : Forall (fun v => length v = w) (page_vals rows)) (SZ : (N.of_nat page_size < 18446744073709551616)%N).
Lemma page_reads : Forall (reads p (reader_rep ms) (reader_vis ms) w wd lvl_rep lvl_def) items.
Proof.
  apply Forall_forall. intros it J. destruct (item_reads it J) as (R1 & R2 & R3 & R4 & R5). unfold reads. split; [exact R1|]. split; [exact R2|]. split; [exact R3|]. split; [exact R4|]. split; [exact R5|].
  destruct (i_val it) as [v|] eqn:E; [|exact Logic.I]. rewrite Forall_forall in VW. apply VW. unfold page_vals. apply in_flat_map. exists it. split; [exact J|]. unfold vals_of. rewrite E. left. reflexivity.
Qed.
Lemma data_size : length (flat_map (bytes_of wd enc_fixed) items) = page_size.
Proof.
  assert (Q : forall l, (forall it, In it l -> In it items) -> length (flat_map (bytes_of wd enc_fixed) l) = sumn (map (@length N) (flat_map vals_of l)) + p_bytes p * length l).
  { induction l as [|it l IH]; intros S; [cbn; lia|]. cbn [flat_map length]. rewrite app_length, IH by (intros x X; apply S; right; exact X). rewrite map_app, sumn_app. unfold bytes_of at 1. rewrite app_length. destruct (item_reads it (S it (or_introl eq_refl))) as (_ & _ & R3 & _). rewrite R3. unfold vals_of at 2. unfold enc_fixed. destruct (i_val it); cbn [length map sumn fold_right]; unfold sumn; cbn [fold_right]; lia. }
  apply Q. auto.
Qed.
Lemma unit_of_ok : forall us, (forall r, In r us -> In r rows) -> Forall (unit_ok p (reader_rep ms) (reader_vis ms) w wd lvl_rep lvl_def) (unit_of us).
Proof.
  intros us S. assert (PR := page_reads). rewrite Forall_forall in PR. assert (HP := p_rep_eq). unfold unit_of, unit_ok. rewrite HP. destruct (Bool.bool_dec hr true) as [H|H].
  - rewrite H. apply Forall_forall. intros r J. split; [apply Forall_forall; intros it X; apply PR; apply in_concat; exists r; auto|]. assert (Q := rows_start H). rewrite Forall_forall in Q. apply Q. auto.
  - apply not_true_is_false in H. rewrite H. apply Forall_map. apply Forall_forall. intros it J. apply in_concat in J as [r [J1 J2]]. assert (I : In it items) by (apply in_concat; exists r; auto). split; [constructor; [auto|constructor]|]. exists it. split; [reflexivity|]. apply all_present; [now rewrite H|exact I].
Qed.
Lemma rows_flat : hr = false -> forall us, (forall r, In r us -> In r rows) -> length (concat us) = length us * ipr /\ length (flat_map (bytes_of wd enc_fixed) (concat us)) = length us * ipr * (w + p_bytes p).
Proof.
  intros H us S. assert (UO := unit_of_ok us S). assert (UF := unit_flat p _ _ w wd lvl_rep lvl_def WP ltac:(rewrite p_rep_eq, H; discriminate) _ UO ltac:(rewrite p_rep_eq; exact H)). cbn beta in UF. rewrite unit_of_concat in UF. destruct UF as [U1 U2].
  assert (LU : length (unit_of us) = length (concat us)) by (unfold unit_of; rewrite H; apply map_length). rewrite LU in U1.
  assert (LC : length (concat us) = length us * ipr).
  { destruct OK as (_ & _ & _ & _ & Q & _). unfold hr in H. rewrite H in Q. destruct Q as [Q _]. rewrite Forall_forall in Q. clear -S Q. induction us as [|r us IH]; [reflexivity|]. cbn [concat length]. rewrite app_length, IH by (intros x X; apply S; right; exact X). rewrite (Q r) by (apply S; left; reflexivity). lia. }
  split; [exact LC|]. rewrite U1, LC. reflexivity.
Qed.
Lemma fetched : forall z rs, encode_full_zip None (page_levels ms hd rows) (page_vals rows) (length rows) = Some z -> Forall (fun r => fst r <= snd r <= length rows) rs ->
  fetch_fixed z w ipr rs = Some (map (fun r => flat_map (bytes_of wd enc_fixed) (concat (unit_of (pick rows r)))) rs).
Proof.
  intros z rs E F. destruct (written None) as [z' (E' & ZP & ZM & ZR & ZD & ZI)]. rewrite E in E'. injection E' as <-. cbn [page_enc index_max] in *. unfold fetch_fixed. rewrite ZI.
  assert (PZ : hr = true -> 0 < page_size) by (intros H; assert (PB := p_bytes_pos (or_introl H)); assert (IN := items_nonempty); unfold page_size; destruct items; [congruence|]; cbn [length]; lia).
  rewrite (map_ext _ (fun r => flat_map (bytes_of wd enc_fixed) (concat (pick rows r)))) by (intros r; rewrite unit_of_concat; reflexivity).
  destruct (Bool.bool_dec hr true) as [H|H].
  - rewrite H. rewrite (proj2 (Nat.eqb_neq page_size 0)) by (specialize (PZ H); lia). assert (I1 : ipr = 1) by (destruct OK as (_ & _ & _ & _ & Q & _); unfold hr in H; rewrite H in Q; apply Q). rewrite I1. unfold units. rewrite H. apply fetch_rows; auto; try (rewrite ZD, data_size; lia).
  - apply not_true_is_false in H. rewrite H. cbn [Nat.eqb]. unfold fetch_simple. rewrite ZP. clear ZI E. induction F as [|r rs B F IH]; [reflexivity|]. cbn [map sequence_opt]. rewrite IH.
    destruct (pick_split _ rows r B) as [P1 P2]. set (E := bytes_of wd enc_fixed) in *.
    assert (DE : z_data z = flat_map E (concat (firstn (fst r) rows)) ++ flat_map E (concat (pick rows r)) ++ flat_map E (concat (skipn (snd r) rows))) by (rewrite ZD; unfold items; rewrite P1 at 1; rewrite !concat_app, !flat_map_app; reflexivity).
    assert (S1 : forall x, In x (firstn (fst r) rows) -> In x rows) by (intros x X; rewrite <- (firstn_skipn (fst r) rows); apply in_or_app; left; exact X).
    destruct (rows_flat H _ S1) as [_ L1]. destruct (rows_flat H (pick rows r) (pick_In _ _ _)) as [_ L2]. fold E in L1, L2.
    assert (LP : length (pick rows r) = snd r - fst r) by (unfold pick; rewrite firstn_length, skipn_length; lia). rewrite firstn_length, Nat.min_l in L1 by lia. rewrite LP in L2.
    rewrite DE. rewrite <- L1. replace (snd r * ipr * (w + p_bytes p)) with (length (flat_map E (concat (firstn (fst r) rows))) + length (flat_map E (concat (pick rows r)))) by (rewrite L1, L2, <- !Nat.mul_assoc, <- Nat.mul_add_distr_r; f_equal; lia). rewrite sub_mid. reflexivity.
Qed.
(* batches of rows are batches of units *)
Lemma groups_units : forall ns us, (forall r, In r us -> In r rows) -> 
  map (FullZipRead.batch lvl_rep lvl_def) (groups (map (fun n => n * ipr) ns) (unit_of us)) = map (fun g => FullZipRead.batch lvl_rep lvl_def g) (groups ns us).
Proof.
  intros ns. induction ns as [|n ns IH]; intros us S; [reflexivity|]. cbn [map groups].
  assert (CS : concat (firstn (n * ipr) (unit_of us)) = concat (firstn n us) /\ skipn (n * ipr) (unit_of us) = unit_of (skipn n us)).
  { destruct (Bool.bool_dec hr true) as [H|H].
    - assert (I1 : ipr = 1) by (destruct OK as (_ & _ & _ & _ & Q & _); unfold hr in H; rewrite H in Q; apply Q). rewrite I1, Nat.mul_1_r. unfold unit_of. rewrite H. auto.
    - apply not_true_is_false in H. unfold unit_of. rewrite H. rewrite <- firstn_map, concat_single || idtac.
      assert (S1 : forall x, In x (firstn n us) -> In x rows) by (intros x X; apply S; rewrite <- (firstn_skipn n us); apply in_or_app; left; exact X).
      destruct (rows_flat H _ S1) as [LC _]. 
      assert (CE : concat us = concat (firstn n us) ++ concat (skipn n us)) by (rewrite <- concat_app, firstn_skipn; reflexivity).
      rewrite skipn_map, firstn_map, concat_single. rewrite CE. rewrite firstn_app, skipn_app. rewrite firstn_length in LC.
      destruct (Nat.le_ge_cases n (length us)) as [Q|Q].
      + rewrite Nat.min_l in LC by exact Q. rewrite LC, Nat.sub_diag, firstn_O, app_nil_r. rewrite firstn_all2, skipn_all2 by lia. auto.
      + rewrite Nat.min_r in LC by exact Q. rewrite (skipn_all2 us) by exact Q. cbn [concat]. rewrite skipn_nil, firstn_nil, !app_nil_r. rewrite firstn_all2, skipn_all2 by nia. auto. }
  destruct CS as [C1 C2]. rewrite C2, IH by (intros x X; apply S; rewrite <- (firstn_skipn n us); apply in_or_app; right; exact X). f_equal. unfold FullZipRead.batch. rewrite C1. reflexivity.
Qed.
Lemma groups_batches : forall ns us, (forall r, In r us -> In r rows) -> Forall (fun n => 0 < n) ns -> sumn ns <= length us ->
  map (fun g => FullZipRead.batch lvl_rep lvl_def g) (groups ns us) = map (batch_of ms (page_nulls rows)) (groups ns us).
Proof.
  induction ns as [|n ns IH]; intros us S P LU; [reflexivity|]. inversion P as [|? ? P1 P2]; subst. change (sumn (n :: ns)) with (n + sumn ns) in LU. cbn [groups map]. rewrite IH; auto; [|intros x X; apply S; rewrite <- (firstn_skipn n us); apply in_or_app; right; exact X|rewrite skipn_length; lia].
  f_equal. apply batch_eq. destruct us as [|r us]; [cbn in LU; lia|]. destruct n as [|n]; [lia|]. cbn [firstn concat]. intros H. apply app_eq_nil in H as [H _]. revert H. apply row_nonempty. apply S. left. reflexivity.
Qed.
Lemma fixed_read : forall z rs ns, encode_full_zip None (page_levels ms hd rows) (page_vals rows) (length rows) = Some z -> Forall (fun r => fst r <= snd r <= length rows) rs ->
  Forall (fun n => 0 < n) ns -> sumn ns <= length (flat_map (pick rows) rs) ->
  read_fixed z w ipr rs ns = Some (map (batch_of ms (page_nulls rows)) (groups ns (flat_map (pick rows) rs))).
Proof.
  intros z rs ns E F P LU. unfold read_fixed. rewrite (fetched z rs E F). cbn [obind]. destruct (written None) as [z' (E' & ZP & ZM & ZR & ZD & ZI)]. rewrite E in E'. injection E' as <-. rewrite ZP, ZM.
  assert (IN : forall r, In r (flat_map (pick rows) rs) -> In r rows) by (intros r J; apply in_flat_map in J as [x [_ J]]; revert J; apply pick_In).
  assert (UC : concat (map (fun r => unit_of (pick rows r)) rs) = unit_of (flat_map (pick rows) rs)).
  { unfold unit_of. clear. destruct hr; [induction rs as [|r rs IH]; [reflexivity|]; cbn; now rewrite IH|]. induction rs as [|r rs IH]; [reflexivity|]. cbn [map concat flat_map]. rewrite IH, concat_app, map_app. reflexivity. }
  rewrite (drains_read p (reader_rep ms) (reader_vis ms) w wd lvl_rep lvl_def WP) with (gs := map (fun r => unit_of (pick rows r)) rs) (pre := []).
  - rewrite UC. rewrite groups_units by exact IN. rewrite groups_batches by assumption. reflexivity.
  - intros H. rewrite p_rep_eq in H. apply p_bytes_pos. left. exact H.
  - intros Z it. unfold lvl_rep, lvl_def. assert (PP := p_bytes_pos). destruct (Bool.bool_dec hr true) as [H|H]; [specialize (PP (or_introl H)); lia|]. apply not_true_is_false in H. rewrite H. split; [reflexivity|]. destruct (Nat.ltb_spec 0 md) as [Q|Q]; [specialize (PP (or_intror Q)); lia|reflexivity].
  - rewrite UC. apply unit_of_ok. exact IN.
  - rewrite UC. unfold unit_of. destruct (Bool.bool_dec hr true) as [H|H].
    + assert (I1 : ipr = 1) by (destruct OK as (_ & _ & _ & _ & Q & _); unfold hr in H; rewrite H in Q; apply Q). rewrite H, I1. rewrite (map_ext _ (fun n => n)) by (intros; lia). rewrite map_id. exact LU.
    + apply not_true_is_false in H. rewrite H, map_length. destruct (rows_flat H _ IN) as [LC _]. rewrite LC. replace (sumn (map (fun n => n * ipr) ns)) with (sumn ns * ipr); [nia|]. clear. induction ns as [|n ns IH]; [reflexivity|]. cbn [map]. change (sumn (n :: ns)) with (n + sumn ns). change (sumn (n * ipr :: map (fun m => m * ipr) ns)) with (n * ipr + sumn (map (fun m => m * ipr) ns)). rewrite <- IH. lia.
  - cbn [f_bufs]. rewrite !map_length. reflexivity.
  - destruct rs as [|r rs]; [reflexivity|]. cbn [map state f_bufs f_off app]. split; [|reflexivity]. f_equal. rewrite map_map. reflexivity.
Qed.
End Fix.
End Page.

(* any ranges of rows of a page, in any batches, are read as they were written *)
Theorem fixed_page : forall ms hd ipr rows w rs ns, page_ok ms hd ipr rows -> 0 < w -> Forall (fun v => length v = w) (page_vals rows) ->
  (N.of_nat (sumn (map (@length N) (page_vals rows)) + 4 * length (concat rows)) < 18446744073709551616)%N ->
  Forall (fun r => fst r <= snd r <= length rows) rs -> Forall (fun n => 0 < n) ns -> sumn ns <= length (flat_map (pick rows) rs) ->
  exists z, encode_full_zip None (page_levels ms hd rows) (page_vals rows) (length rows) = Some z /\
  read_fixed z w ipr rs ns = Some (map (batch_of ms (page_nulls rows)) (groups ns (flat_map (pick rows) rs))).
Proof.
  intros ms hd ipr rows w rs ns OK WP VW SZ F P L. destruct (written ms hd ipr rows OK None) as [z (E & _)]. exists z. split; [exact E|]. apply (fixed_read ms hd ipr rows OK w WP VW); auto.
  unfold page_size. assert (Q := p_bytes_le ms hd ipr rows OK). nia.
Qed.
