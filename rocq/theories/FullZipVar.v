(* Reading pages of the full-zip layout: values of variable width. *)
From Coq Require Import List Arith NArith Bool Lia.
From Verif Require Import Lib SerdeModel SerdeProofs RepDefModel RepDefProofs FullZipModel FullZipProofs FullZipRead FullZipPage.
Import ListNotations.
Local Open Scope nat_scope.

(* what is read of an item: a null is an empty value *)
Definition read_val (it : item) : list (list N) := match i_val it with Some v => if i_def it =? 0 then [v] else [[]] | None => [] end.
(* where values start, and the end *)
Fixpoint sums (off : nat) (vs : list (list N)) : list nat := match vs with [] => [off] | v :: t => off :: sums (off + length v) t end.
Fixpoint starts (off : nat) (vs : list (list N)) : list nat := match vs with [] => [] | v :: t => off :: starts (off + length v) t end.
Lemma starts_end : forall vs off, starts off vs ++ [off + length (concat vs)] = sums off vs.
Proof. induction vs as [|v vs IH]; intros off; cbn [starts sums concat length app]; [now rewrite Nat.add_0_r|]. rewrite app_length, Nat.add_assoc, IH. reflexivity. Qed.
Lemma starts_snoc : forall vs off v, starts off (vs ++ [v]) = starts off vs ++ [off + length (concat vs)].
Proof. induction vs as [|x vs IH]; intros off v; cbn [starts concat length app]; [now rewrite Nat.add_0_r|]. rewrite IH, app_length, Nat.add_assoc. reflexivity. Qed.
Lemma starts_length : forall vs off, length (starts off vs) = length vs.
Proof. induction vs as [|v vs IH]; intros off; [reflexivity|]. cbn. now rewrite IH. Qed.
Lemma sums_length : forall vs off, length (sums off vs) = S (length vs).
Proof. induction vs as [|v vs IH]; intros off; [reflexivity|]. cbn [sums length]. now rewrite IH. Qed.
Lemma sums_skip : forall a b off, skipn (length a) (sums off (a ++ b)) = sums (off + length (concat a)) b.
Proof. induction a as [|v a IH]; intros b off; cbn [length skipn app concat sums]; [now rewrite Nat.add_0_r|]. rewrite IH, app_length, Nat.add_assoc. reflexivity. Qed.
Lemma sums_first : forall b c off, firstn (S (length b)) (sums off (b ++ c)) = sums off b.
Proof. induction b as [|v b IH]; intros c off; [destruct c; reflexivity|]. cbn [length app sums]. rewrite firstn_cons, IH. reflexivity. Qed.
Lemma windows_step : forall data a b t, windows data (a :: b :: t) = obind (sub (N.to_nat a) (N.to_nat b) data) (fun v => omap (cons v) (windows data (b :: t))).
Proof. reflexivity. Qed.
Lemma windows_sums : forall b A C, windows (A ++ concat b ++ C) (map N.of_nat (sums (length A) b)) = Some b.
Proof.
  induction b as [|v b IH]; intros A C; [reflexivity|]. cbn [sums concat map]. assert (HS : exists t, sums (length A + length v) b = (length A + length v) :: t) by (destruct b; cbn; eauto). destruct HS as [t HS]. rewrite HS. cbn [map]. rewrite windows_step, !Nnat.Nat2N.id, <- app_assoc, sub_mid. cbn [obind].
  specialize (IH (A ++ v) C). rewrite app_length, HS in IH. cbn [map] in IH. rewrite <- app_assoc in IH. rewrite IH. reflexivity.
Qed.

Section Var.
Context (p : parser) (mr mv : N) (k : nat) (wd : item -> list N * desc) (R D : item -> list nat).
Definition vreads (it : item) : Prop :=
  (forall rest, parse p (fst (wd it) ++ rest) = Some (R it, D it)) /\ (forall rest, parse_desc p (fst (wd it) ++ rest) mr mv = Some (snd (wd it))) /\
  length (fst (wd it)) = p_bytes p /\ shown wd it /\ d_valid (snd (wd it)) = (i_def it =? 0) /\
  match i_val it with Some v => (N.of_nat (length v) < 2 ^ (8 * N.of_nat k))%N | None => True end /\ (p_bytes p = 0 -> 0 < k /\ i_def it = 0 /\ i_val it <> None).
Let E := bytes_of wd (enc_var k).
Definition cnt (l : list item) : nat := length (flat_map read_val l).
Definition pos (l : list item) : nat := Nat.max (length (flat_map R l)) (length (flat_map D l)).
(* the state after items *)
Definition V (l : list item) (st os : list nat) : unzipped :=
  {| v_rep := flat_map R l; v_def := flat_map D l; v_offsets := map N.of_nat (starts 0 (flat_map read_val l)); v_data := concat (flat_map read_val l); v_starts := st; v_offset_starts := os;
     v_cur := N.of_nat (length (concat (flat_map read_val l))) |}.
Definition fits (l : list item) : Prop := (N.of_nat (length (concat (flat_map read_val l))) < 2 ^ (8 * N.of_nat k))%N.
Lemma fits_app : forall a b, fits (a ++ b) -> fits a.
Proof. intros a b. unfold fits. rewrite flat_map_app, concat_app, app_length. lia. Qed.
Lemma sub_front : forall a b : list N, sub 0 (length a) (a ++ b) = Some a.
Proof. intros a b. exact (sub_mid [] a b). Qed.
Lemma skip_front : forall A (a b : list A), skipn (length a) (a ++ b) = b.
Proof. intros A a b. now rewrite skipn_app, skipn_all, Nat.sub_diag. Qed.
Lemma unzip_item : forall it l st os rest fuel, vreads it -> fits (l ++ [it]) ->
  unzip_buf (S fuel) p mr mv k (E it ++ rest) (V l st os) =
  unzip_buf fuel p mr mv k rest (V (l ++ [it]) (if d_new (snd (wd it)) then st ++ [pos l] else st) (if d_new (snd (wd it)) then os ++ [cnt l] else os)).
Proof.
  intros it l st os rest fuel (R1 & R2 & R3 & R4 & R5 & R6 & R7) F.
  assert (EB : E it = fst (wd it) ++ match i_val it with Some v => if i_def it =? 0 then le_bytes k (trunc k (N.of_nat (length v))) ++ v else [] | None => [] end) by (unfold E, bytes_of, enc_var; rewrite R5; reflexivity).
  assert (NE : exists x y, E it ++ rest = x :: y).
  { destruct (E it) as [|x y] eqn:EE; [|exists x, (y ++ rest); reflexivity]. exfalso. symmetry in EB. apply app_eq_nil in EB as [EB1 EB2]. rewrite EB1 in R3. destruct (R7 ltac:(cbn in R3; lia)) as (K & Z & VV). rewrite Z in EB2. destruct (i_val it) as [v|]; [|congruence]. cbn [Nat.eqb] in EB2. apply app_eq_nil in EB2 as [EB2 _]. assert (Q := le_bytes_length k (trunc k (N.of_nat (length v)))). rewrite EB2 in Q. cbn in Q. lia. }
  destruct NE as [x [y NE]]. rewrite NE. cbn [unzip_buf]. rewrite <- NE. rewrite EB, <- app_assoc, R2, R1. cbn [obind]. rewrite <- R3, skip_front. unfold shown in R4. rewrite R4, R5.
  assert (CUR : trunc k (N.of_nat (length (concat (flat_map read_val l)))) = N.of_nat (length (concat (flat_map read_val l)))) by (apply trunc_id; apply fits_app in F; exact F).
  destruct (i_val it) as [v|] eqn:EV; cbn [is_some andb].
  - assert (RV : read_val it = if i_def it =? 0 then [v] else [[]]) by (unfold read_val; rewrite EV; reflexivity). destruct (Nat.eqb_spec (i_def it) 0) as [Z|Z].
    + set (lb := le_bytes k (trunc k (N.of_nat (length v)))). assert (LL : length lb = k) by apply le_bytes_length. rewrite <- app_assoc. replace (sub 0 k (lb ++ v ++ rest)) with (Some lb) by (rewrite <- LL; symmetry; apply sub_front). cbn [obind].
      assert (OL : N.to_nat (of_le_bytes lb) = length v) by (subst lb; rewrite trunc_id by exact R6; rewrite of_le_bytes_le by (rewrite pow256; exact R6); apply Nnat.Nat2N.id).
      rewrite OL. replace (sub k (k + length v) (lb ++ v ++ rest)) with (Some v) by (rewrite <- LL; symmetry; apply sub_mid). cbn [obind]. replace (skipn (k + length v) (lb ++ v ++ rest)) with rest by (rewrite <- LL, <- app_length, app_assoc, skip_front; reflexivity).
      f_equal. unfold v_add, V. cbn [v_rep v_def v_offsets v_data v_starts v_offset_starts v_cur]. rewrite !flat_map_app. cbn [flat_map]. rewrite RV, !app_nil_r, starts_snoc, map_app, concat_app, app_length, CUR. cbn [map concat app Nat.add]. rewrite app_nil_r. rewrite map_length, starts_length. fold (pos l). fold (cnt l).
      f_equal; [destruct (d_new _); [reflexivity|apply app_nil_r]|destruct (d_new _); [reflexivity|apply app_nil_r]|lia].
    + cbn [app]. f_equal. unfold v_add, V. cbn [v_rep v_def v_offsets v_data v_starts v_offset_starts v_cur]. rewrite !flat_map_app. cbn [flat_map]. rewrite RV, !app_nil_r, starts_snoc, map_app, concat_app, app_length, CUR. cbn [map concat app Nat.add length]. rewrite !app_nil_r. rewrite map_length, starts_length. fold (pos l). fold (cnt l).
      f_equal; [destruct (d_new _); [reflexivity|apply app_nil_r]|destruct (d_new _); [reflexivity|apply app_nil_r]|lia].
  - assert (RV : read_val it = []) by (unfold read_val; rewrite EV; reflexivity). cbn [app]. f_equal. unfold v_add, V. cbn [v_rep v_def v_offsets v_data v_starts v_offset_starts v_cur]. rewrite !flat_map_app. cbn [flat_map]. rewrite RV, !app_nil_r. rewrite map_length, starts_length. fold (pos l). fold (cnt l). cbn [length].
      f_equal; [destruct (d_new _); [reflexivity|apply app_nil_r]|destruct (d_new _); [reflexivity|apply app_nil_r]|lia].
Qed.
Lemma E_pos : forall it, vreads it -> 0 < length (E it).
Proof.
  intros it (R1 & R2 & R3 & R4 & R5 & R6 & R7). unfold E, bytes_of, enc_var. rewrite app_length, R3, R5. destruct (p_bytes p) as [|b]; [|lia]. destruct (R7 eq_refl) as (K & Z & VV). destruct (i_val it) as [v|]; [|congruence]. rewrite Z. cbn [Nat.eqb]. rewrite app_length, le_bytes_length. lia.
Qed.
Lemma unzip_tail : forall t l st os rest fuel, Forall vreads t -> Forall (fun x => d_new (snd (wd x)) = false) t -> fits (l ++ t) ->
  unzip_buf (length t + fuel) p mr mv k (flat_map E t ++ rest) (V l st os) = unzip_buf fuel p mr mv k rest (V (l ++ t) st os).
Proof.
  induction t as [|it t IH]; intros l st os rest fuel G N F; [cbn [length flat_map app Nat.add]; now rewrite app_nil_r|]. inversion G as [|? ? G1 G2]; inversion N as [|? ? N1 N2]; subst. cbn [length flat_map Nat.add]. rewrite <- app_assoc.
  replace (l ++ it :: t) with ((l ++ [it]) ++ t) in * by (rewrite <- app_assoc; reflexivity). rewrite unzip_item by (auto; apply fits_app in F; exact F). rewrite N1. rewrite IH by auto. reflexivity.
Qed.
Fixpoint marks (f : list item -> nat) (l : list item) (rows : list (list item)) : list nat := match rows with [] => [] | r :: t => f l :: marks f (l ++ r) t end.
Lemma unzip_rows : forall rows l st os fuel, Forall (starts_row wd) rows -> Forall vreads (concat rows) -> fits (l ++ concat rows) -> length (concat rows) <= fuel ->
  unzip_buf fuel p mr mv k (flat_map E (concat rows)) (V l st os) = Some (V (l ++ concat rows) (st ++ marks pos l rows) (os ++ marks cnt l rows)).
Proof.
  induction rows as [|r rows IH]; intros l st os fuel S G F L; [cbn [concat flat_map marks]; destruct fuel; cbn [unzip_buf]; rewrite !app_nil_r; reflexivity|].
  inversion S as [|? ? S1 S2]; subst. destruct r as [|it t]; [destruct S1|]. destruct S1 as [N1 Nt]. cbn [concat marks] in *. apply Forall_app in G as [G1 G2]. inversion G1 as [|? ? Gi Gt]; subst. rewrite flat_map_app. cbn [flat_map]. rewrite app_length in L. cbn [length] in L.
  rewrite (app_assoc l) in F. destruct fuel as [|fuel]; [lia|]. rewrite <- app_assoc. assert (F1 : fits ((l ++ [it]) ++ t)) by (apply fits_app in F; rewrite <- app_assoc; exact F). rewrite unzip_item by (auto; apply fits_app in F1; exact F1). rewrite N1.
  replace fuel with (length t + (fuel - length t)) by lia. rewrite unzip_tail by auto. rewrite IH; auto; [|rewrite <- (app_assoc l [it] t); exact F|lia].
  rewrite <- (app_assoc l [it] t). change ([it] ++ t) with (it :: t). rewrite <- !app_assoc. reflexivity.
Qed.
Lemma marks_app : forall f a l b, marks f l (a ++ b) = marks f l a ++ marks f (l ++ concat a) b.
Proof. induction a as [|r a IH]; intros l b; cbn [app marks concat]; [now rewrite app_nil_r|]. rewrite IH, app_assoc. reflexivity. Qed.
Lemma marks_nth : forall f rows l j, j <= length rows -> nth_error (marks f l rows ++ [f (l ++ concat rows)]) j = Some (f (l ++ concat (firstn j rows))).
Proof.
  induction rows as [|r rows IH]; intros l [|j] L; cbn [length] in L; try lia; cbn [marks app nth_error firstn concat]; [reflexivity|now rewrite app_nil_r|]. rewrite app_assoc. rewrite IH by lia. rewrite <- app_assoc. reflexivity.
Qed.
(* the state after the ranges [gs] of rows *)
Lemma unzip_gs : forall gs, Forall (starts_row wd) (concat gs) -> Forall vreads (concat (concat gs)) -> fits (concat (concat gs)) ->
  unzip_all p mr mv k (map (fun g => flat_map E (concat g)) gs) =
  Some {| v_rep := flat_map R (concat (concat gs)); v_def := flat_map D (concat (concat gs)); v_offsets := map N.of_nat (sums 0 (flat_map read_val (concat (concat gs)))); v_data := concat (flat_map read_val (concat (concat gs)));
          v_starts := marks pos [] (concat gs) ++ [pos (concat (concat gs))]; v_offset_starts := marks cnt [] (concat gs) ++ [cnt (concat (concat gs))]; v_cur := N.of_nat (length (concat (flat_map read_val (concat (concat gs))))) |}.
Proof.
  intros gs S G F. unfold unzip_all.
  assert (Q : forall done, Forall (starts_row wd) (concat gs) -> fits (concat done ++ concat (concat gs)) ->
    fold_left (fun u buf => obind u (unzip_buf (length buf) p mr mv k buf)) (map (fun g => flat_map E (concat g)) gs) (Some (V (concat done) (marks pos [] done) (marks cnt [] done))) =
    Some (V (concat (done ++ concat gs)) (marks pos [] (done ++ concat gs)) (marks cnt [] (done ++ concat gs)))).
  { clear F. induction gs as [|g gs IH]; intros done S' F; [cbn [map fold_left concat]; now rewrite app_nil_r|]. cbn [concat map fold_left] in *. apply Forall_app in S' as [S1 S2]. rewrite concat_app in G, F. apply Forall_app in G as [G1 G2]. rewrite app_assoc in F.
    cbn [obind]. rewrite unzip_rows; auto; [|apply fits_app in F; exact F|].
    - rewrite <- concat_app. replace (marks pos [] done ++ marks pos (concat done) g) with (marks pos [] (done ++ g)) by (rewrite marks_app; reflexivity). replace (marks cnt [] done ++ marks cnt (concat done) g) with (marks cnt [] (done ++ g)) by (rewrite marks_app; reflexivity).
      rewrite IH; auto; [rewrite <- !app_assoc; reflexivity|]. rewrite concat_app. exact F.
    - clear -G1. induction G1 as [|it l Gi G IH]; [cbn; lia|]. cbn [length flat_map]. rewrite app_length. assert (X := E_pos it Gi). lia. }
  specialize (Q [] S F). cbn [concat marks app] in Q. change (V [] [] []) with v_empty in Q. rewrite Q. cbn [omap]. f_equal. unfold v_add, V. cbn [v_rep v_def v_offsets v_data v_starts v_offset_starts v_cur length]. rewrite !app_nil_r, N.add_0_r.
  rewrite trunc_id by exact F. rewrite <- starts_end, map_app. cbn [map Nat.add]. rewrite map_length, starts_length. reflexivity.
Qed.
(* ---- batches ---- *)
Definition vbatch (us : list (list item)) : decoded := {| o_rep := Some (flat_map R (concat us)); o_def := Some (flat_map D (concat us)); o_vals := flat_map read_val (concat us) |}.
Lemma drains_vbatch : forall ns sel u j, (forall j n, j + n <= length sel -> drain_var u j n = Some (vbatch (firstn n (skipn j sel)))) -> j + sumn ns <= length sel ->
  drains_var u j ns = Some (map vbatch (groups ns (skipn j sel))).
Proof.
  induction ns as [|n ns IH]; intros sel u j H L; [reflexivity|]. change (sumn (n :: ns)) with (n + sumn ns) in L. cbn [drains_var groups map]. rewrite H by lia. cbn [obind]. rewrite (IH sel) by (auto; lia). cbn [omap]. rewrite skipn_skipn'. do 4 f_equal.
Qed.
Context (cr cd : nat) (CR : forall it, length (R it) = cr) (CD : forall it, length (D it) = cd) (C1 : cr <= 1) (C2 : cd <= 1).
Lemma const_len : forall A (f : item -> list A) c l, (forall it, length (f it) = c) -> length (flat_map f l) = length l * c.
Proof. intros A f c l H. induction l as [|x l IH]; [reflexivity|]. cbn [flat_map length]. rewrite app_length, H, IH. lia. Qed.
Lemma cut_mid : forall A (a b c : list A), cut (length a) (length a + length b) (a ++ b ++ c) = Some b.
Proof.
  intros A a b c. unfold cut. rewrite !app_length. rewrite (proj2 (Nat.leb_le _ _)) by lia. rewrite (proj2 (Nat.leb_le _ _)) by lia. cbn [andb]. f_equal.
  rewrite skipn_app, skipn_all2, Nat.sub_diag by lia. cbn [skipn app]. replace (length a + length b - length a) with (length b) by lia. rewrite firstn_app, Nat.sub_diag, firstn_O, app_nil_r. apply firstn_all2. lia.
Qed.
Lemma cut_levels : forall (f : item -> list nat) c, (forall it, length (f it) = c) -> c <= 1 -> (c = 1 -> forall l, pos l = length l) -> forall a b d,
  match flat_map f (a ++ b ++ d) with [] => Some [] | _ => cut (pos a) (pos (a ++ b)) (flat_map f (a ++ b ++ d)) end = Some (flat_map f b).
Proof.
  intros f c H C P a b d. assert (LF := fun l => const_len _ f c l H). destruct (Nat.eq_dec c 1) as [->|Z].
  - replace (match flat_map f (a ++ b ++ d) with [] => Some [] | _ :: _ => cut (pos a) (pos (a ++ b)) (flat_map f (a ++ b ++ d)) end) with (cut (pos a) (pos (a ++ b)) (flat_map f (a ++ b ++ d))).
    + rewrite !P by reflexivity. rewrite !flat_map_app, app_length. replace (length a) with (length (flat_map f a)) by (rewrite LF; lia). replace (length b) with (length (flat_map f b)) by (rewrite LF; lia). apply cut_mid.
    + destruct (flat_map f (a ++ b ++ d)) eqn:EF; [|reflexivity]. assert (Q := LF (a ++ b ++ d)). rewrite EF in Q. cbn [length] in Q. assert (length (a ++ b ++ d) = 0) by lia. destruct a, b, d; try discriminate. rewrite !P by reflexivity. reflexivity.
  - assert (Z0 : forall l, flat_map f l = []) by (intros l; specialize (LF l); destruct (flat_map f l); [reflexivity|cbn in LF; nia]). rewrite !Z0. reflexivity.
Qed.
Lemma drain_vbatch : forall sel j n, j + n <= length sel ->
  drain_var {| v_rep := flat_map R (concat sel); v_def := flat_map D (concat sel); v_offsets := map N.of_nat (sums 0 (flat_map read_val (concat sel))); v_data := concat (flat_map read_val (concat sel));
          v_starts := marks pos [] sel ++ [pos (concat sel)]; v_offset_starts := marks cnt [] sel ++ [cnt (concat sel)]; v_cur := N.of_nat (length (concat (flat_map read_val (concat sel)))) |} j n = Some (vbatch (firstn n (skipn j sel))).
Proof.
  intros sel j n L. unfold drain_var. cbn [v_rep v_def v_offsets v_data v_starts v_offset_starts].
  assert (MN := fun f i Q => marks_nth f sel [] i Q). cbn [app] in MN. rewrite (MN cnt j) by lia. rewrite (MN cnt (j + n)) by lia. rewrite (MN pos j) by lia. rewrite (MN pos (j + n)) by lia. clear MN. cbn [obind app].
  assert (F2 : firstn (j + n) sel = firstn j sel ++ firstn n (skipn j sel)) by (rewrite <- (firstn_skipn j sel) at 1; rewrite firstn_app, firstn_length, Nat.min_l by lia; rewrite (firstn_all2 (n := j + n)) by (rewrite firstn_length; lia); do 2 f_equal; lia).
  assert (SE : sel = firstn j sel ++ firstn n (skipn j sel) ++ skipn (j + n) sel) by (rewrite app_assoc, <- F2; symmetry; apply firstn_skipn).
  set (a := firstn j sel) in *. set (b := firstn n (skipn j sel)) in *. set (d := skipn (j + n) sel) in *. rewrite F2. clearbody a b d. subst sel. clear F2 L.
  rewrite !concat_app. set (xa := concat a). set (xb := concat b). set (xd := concat d).
  assert (CO : cut (cnt xa) (cnt (xa ++ xb) + 1) (map N.of_nat (sums 0 (flat_map read_val (xa ++ xb ++ xd)))) = Some (map N.of_nat (sums (length (concat (flat_map read_val xa))) (flat_map read_val xb)))).
  { unfold cut, cnt. rewrite !flat_map_app, map_length, sums_length, !app_length. rewrite (proj2 (Nat.leb_le _ _)) by lia. rewrite (proj2 (Nat.leb_le _ _)) by lia. cbn [andb]. f_equal. rewrite skipn_map, firstn_map. f_equal. rewrite sums_skip. cbn [Nat.add]. replace (length (flat_map read_val xa) + length (flat_map read_val xb) + 1 - length (flat_map read_val xa)) with (S (length (flat_map read_val xb))) by lia. apply sums_first. }
  rewrite CO. cbn [obind].
  assert (PC : forall l, pos l = Nat.max (length l * cr) (length l * cd)) by (intros l; unfold pos; rewrite (const_len _ R cr), (const_len _ D cd) by assumption; reflexivity).
  rewrite (cut_levels R cr CR C1) by (intros -> l; rewrite PC; nia). cbn [obind]. rewrite (cut_levels D cd CD C2) by (intros -> l; rewrite PC; nia). cbn [obind].
  rewrite !flat_map_app, !concat_app. rewrite windows_sums. reflexivity.
Qed.
End Var.

Section VarPage.
Context (ms : list meaning) (hd : bool) (rows : list (list item)) (OK : page_ok ms hd 1 rows) (k : nat) (KP : 0 < k).
Let hr := has_lists ms.
Let mr := if hr then lists ms else 0.
Let md := maxl (map i_def (concat rows)).
Let wd := word_of hr hd mr md (writer_vis ms).
Let p := parser_of hr hd mr md.
Context (VS : (N.of_nat (sumn (map (@length N) (page_vals rows))) < 2 ^ (8 * N.of_nat k))%N) (SZ : (N.of_nat (sumn (map (@length N) (page_vals rows)) + (4 + k) * length (concat rows)) < 18446744073709551616)%N).
Lemma unit_rows : units ms rows = rows.
Proof.
  unfold units. destruct (has_lists ms) eqn:H; [reflexivity|]. destruct OK as (_ & _ & _ & _ & Q & _). rewrite H in Q. destruct Q as [Q _]. clear -Q. induction Q as [|r rows R Q IH]; [reflexivity|]. destruct r as [|x [|y r]]; try discriminate R. cbn [concat app map]. rewrite IH. reflexivity.
Qed.
Lemma rows_start' : Forall (starts_row wd) rows.
Proof. assert (Q := units_start ms hd 1 rows OK). rewrite unit_rows in Q. exact Q. Qed.
Lemma len_le : forall v, In v (page_vals rows) -> length v <= sumn (map (@length N) (page_vals rows)).
Proof. generalize (page_vals rows). induction l as [|x l IH]; intros v J; [destruct J|]. change (sumn (map (length (A:=N)) (x :: l))) with (length x + sumn (map (@length N) l)). destruct J as [->|J]; [lia|]. specialize (IH v J). lia. Qed.
Lemma page_vreads : Forall (vreads p (reader_rep ms) (reader_vis ms) k wd (lvl_rep ms) (lvl_def rows)) (concat rows).
Proof.
  apply Forall_forall. intros it J. destruct (item_reads ms hd 1 rows OK it J) as (R1 & R2 & R3 & R4 & R5). unfold vreads. split; [exact R1|]. split; [exact R2|]. split; [exact R3|]. split; [exact R4|].
  destruct (word_read hr hd mr md (writer_vis ms) it (level_bounds ms hd 1 rows OK) (rep_le ms hd 1 rows OK it J) (def_le rows it J)) as (_ & _ & _ & _ & _ & W). split; [exact W|]. split.
  - destruct (i_val it) as [v|] eqn:E; [|exact Logic.I]. assert (Q := len_le v). assert (In v (page_vals rows)) by (unfold page_vals; apply in_flat_map; exists it; split; [exact J|]; unfold vals_of; rewrite E; left; reflexivity). specialize (Q H). lia.
  - intros Z. split; [exact KP|]. assert (PP := p_bytes_pos ms hd 1 rows OK). fold hr in PP. fold md in PP. fold mr in PP. change (parser_of hr hd mr md) with p in PP. assert (H : hr = false) by (destruct (Bool.bool_dec hr true) as [H|H]; [specialize (PP (or_introl H)); lia|apply not_true_is_false; exact H]).
    split; [assert (Q := def_le rows it J); fold md in Q; destruct (Nat.eq_dec md 0); [lia|]; specialize (PP (or_intror ltac:(lia))); lia|]. apply (all_present ms hd 1 rows OK); [fold hr; rewrite H; reflexivity|exact J].
Qed.
Lemma var_size : length (flat_map (bytes_of wd (enc_var k)) (concat rows)) <= index_max ms hd rows (Some k) /\ 0 < index_max ms hd rows (Some k) /\ (N.of_nat (index_max ms hd rows (Some k)) < 18446744073709551616)%N.
Proof.
  assert (PB := p_bytes_le ms hd 1 rows OK). assert (VR := page_vreads). assert (IN := items_nonempty ms hd 1 rows OK). change (parser_of _ _ _ _) with p in PB. cbn [index_max]. unfold page_size. change (parser_of _ _ _ _) with p. unfold page_vals in *. clearbody p wd. generalize dependent (concat rows). intros l _ VS2 SZ2 VR IN. clear VS SZ.
  assert (VL : length (flat_map vals_of l) <= length l) by (clear; induction l as [|x l IH]; [cbn; lia|]; cbn [flat_map length]; rewrite app_length; assert (Q : length (vals_of x) <= 1) by (unfold vals_of; destruct (i_val x); cbn; lia); lia).
  split; [|split; [|nia]].
  - clear -VR. induction VR as [|it l Hi G IH]; [cbn; lia|]. cbn [flat_map length]. rewrite !app_length, map_app, sumn_app. destruct Hi as (_ & _ & H3 & _ & H5 & _).
    assert (Q : length (bytes_of wd (enc_var k) it) <= sumn (map (@length N) (vals_of it)) + p_bytes p + k * length (vals_of it)); [|lia].
    unfold bytes_of, enc_var, vals_of. rewrite app_length, H3, H5. destruct (i_val it) as [v|]; cbn [length map]; [|lia]. change (sumn [length v]) with (length v + 0). destruct (i_def it =? 0); rewrite ?app_length, ?le_bytes_length; cbn [length]; lia.
  - destruct l as [|it l]; [congruence|]. inversion VR as [|? ? Hi _]; subst. destruct Hi as (_ & _ & _ & _ & _ & _ & H7). cbn [length flat_map]. rewrite app_length. destruct (Nat.eq_dec (p_bytes p) 0) as [Z|Z]; [|nia]. destruct (H7 Z) as (_ & _ & V). assert (Q : length (vals_of it) = 1) by (unfold vals_of; destruct (i_val it); [reflexivity|congruence]). nia.
Qed.
Lemma var_read : forall z rs ns, encode_full_zip (Some k) (page_levels ms hd rows) (page_vals rows) (length rows) = Some z -> Forall (fun r => fst r <= snd r <= length rows) rs ->
  (N.of_nat (length (concat (flat_map read_val (concat (flat_map (pick rows) rs))))) < 2 ^ (8 * N.of_nat k))%N -> sumn ns <= length (flat_map (pick rows) rs) ->
  read_var z k rs ns = Some (map (vbatch (lvl_rep ms) (lvl_def rows)) (groups ns (flat_map (pick rows) rs))).
Proof.
  intros z rs ns E F SS L. destruct (written ms hd 1 rows OK (Some k)) as [z' (E' & ZP & ZM & ZR & ZD & ZI)]. rewrite E in E'. injection E' as <-. cbn [page_enc] in *. destruct var_size as (S1 & S2 & S3). unfold read_var. rewrite ZI, (proj2 (Nat.eqb_neq _ _)) by lia. cbn [obind]. rewrite unit_rows.
  fold hr in ZP, ZD |- *. fold md in ZP, ZD |- *. fold mr in ZP, ZD |- *. fold p in ZP. fold wd in ZD |- *.
  rewrite (fetch_rows wd (enc_var k) z rows rs _ ZD ZR S2 S3) by (auto; rewrite ZD; exact S1). cbn [obind]. rewrite ZP, ZM.
  assert (IN : forall r, In r (flat_map (pick rows) rs) -> In r rows) by (intros r J; apply in_flat_map in J as [x [_ J]]; revert J; apply pick_In).
  assert (CC : concat (map (pick rows) rs) = flat_map (pick rows) rs) by (symmetry; apply flat_map_concat_map).
  assert (UG := unzip_gs p (reader_rep ms) (reader_vis ms) k wd (lvl_rep ms) (lvl_def rows) (map (pick rows) rs)). rewrite map_map in UG. rewrite CC in UG. rewrite UG.
  - cbn [obind]. rewrite (drains_vbatch (lvl_rep ms) (lvl_def rows) ns (flat_map (pick rows) rs)); [reflexivity| |exact L]. intros j n Q.
    eapply drain_vbatch with (cr := if hr then 1 else 0) (cd := if 0 <? md then 1 else 0); auto.
    + intros it. unfold lvl_rep. fold hr. destruct hr; reflexivity.
    + intros it. unfold lvl_def. fold md. destruct (0 <? md); reflexivity.
    + destruct hr; lia.
    + destruct (0 <? md); lia.
  - apply Forall_forall. intros r J. assert (Q := rows_start'). rewrite Forall_forall in Q. auto.
  - apply Forall_forall. intros it J. assert (Q := page_vreads). rewrite Forall_forall in Q. apply Q. apply in_concat in J as [r [J1 J2]]. apply in_concat. exists r. auto.
  - exact SS.
Qed.
End VarPage.
(* what should be read of rows: both levels are given, empty when there are none *)
Definition vbatch_of (ms : list meaning) (nulls : bool) (us : list (list item)) : decoded :=
  {| o_rep := Some (if has_lists ms then map i_rep (concat us) else []); o_def := Some (if nulls then map i_def (concat us) else []); o_vals := flat_map read_val (concat us) |}.
(* any ranges of rows of a page, in any batches, are read as they were written, nulls as empty values *)
Theorem var_page : forall ms hd rows k rs ns, page_ok ms hd 1 rows -> 0 < k ->
  (N.of_nat (sumn (map (@length N) (page_vals rows))) < 2 ^ (8 * N.of_nat k))%N ->
  (N.of_nat (sumn (map (@length N) (page_vals rows)) + (4 + k) * length (concat rows)) < 18446744073709551616)%N ->
  Forall (fun r => fst r <= snd r <= length rows) rs ->
  (N.of_nat (length (concat (flat_map read_val (concat (flat_map (pick rows) rs))))) < 2 ^ (8 * N.of_nat k))%N -> sumn ns <= length (flat_map (pick rows) rs) ->
  exists z, encode_full_zip (Some k) (page_levels ms hd rows) (page_vals rows) (length rows) = Some z /\
  read_var z k rs ns = Some (map (vbatch_of ms (page_nulls rows)) (groups ns (flat_map (pick rows) rs))).
Proof.
  intros ms hd rows k rs ns OK KP VS SZ F SS L. destruct (written ms hd 1 rows OK (Some k)) as [z (E & _)]. exists z. split; [exact E|]. rewrite (var_read ms hd rows OK k KP VS SZ z rs ns E F SS L). f_equal. apply map_ext. intros us. unfold vbatch, vbatch_of. rewrite (lvl_rep_map ms hd rows), (lvl_def_map ms hd rows). reflexivity.
Qed.
