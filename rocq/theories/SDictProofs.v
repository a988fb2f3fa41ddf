From Coq Require Import List Arith NArith Bool Lia ZifyBool ZifyN ZifyNat.
From Verif Require Import Lib PageModel ListEncModel ListEncProofs SerdeModel FlatModel FlatProofs FlatPage SDictModel.
From Verif Require PageProofs BinEncModel BinEncProofs.
Import ListNotations.
Local Open Scope nat_scope.

(* ---- specification ---- *)
Definition valid_strings (rows : list (option str)) : list str := flat_map (fun o => match o with Some s => [s] | None => [] end) rows.
Definition distinct (rows : list (option str)) : nat := length (nodup (list_eq_dec Nat.eq_dec) (valid_strings rows)).
Definition limit (checked : bool) : nat := if checked then 254 else 255.

Lemma str_eqb_true : forall a b, str_eqb a b = true <-> a = b.
Proof. intros a b. unfold str_eqb. destruct (list_eq_dec Nat.eq_dec a b); split; auto; discriminate. Qed.
Lemma str_eqb_refl : forall a, str_eqb a a = true.
Proof. intros a. now apply str_eqb_true. Qed.
(* the map after the values [items], the last one first *)
Definition entries (items : list str) : list (str * N) := rev (combine items (map N.of_nat (seq 1 (length items)))).
Lemma entries_snoc : forall items s, entries (items ++ [s]) = (s, N.of_nat (S (length items))) :: entries items.
Proof.
  intros items s. unfold entries. rewrite app_length, Nat.add_1_r, seq_S, map_app. cbn [map]. rewrite combine_app' by now rewrite map_length, seq_length.
  cbn [combine]. rewrite rev_app_distr. reflexivity.
Qed.
Lemma lookup_some : forall items s e, lookup s (entries items) = Some e -> exists j, e = N.of_nat (S j) /\ nth_error items j = Some s.
Proof.
  intros items. induction items as [|x items IH] using rev_ind; intros s e H; [discriminate|]. rewrite entries_snoc in H. unfold lookup in H. cbn [find fst] in H. destruct (str_eqb x s) eqn:E.
  - cbn [omap snd] in H. injection H as <-. apply str_eqb_true in E. subst x. exists (length items). split; [reflexivity|]. now rewrite nth_error_app2, Nat.sub_diag.
  - destruct (IH s e H) as [j [J1 J2]]. exists j. split; [exact J1|]. rewrite nth_error_app1; [exact J2|]. apply nth_error_Some. congruence.
Qed.
Lemma lookup_none : forall items s, lookup s (entries items) = None -> ~ In s items.
Proof.
  intros items. induction items as [|x items IH] using rev_ind; intros s H I; [destruct I|]. rewrite entries_snoc in H. unfold lookup in H. cbn [find fst] in H. destruct (str_eqb x s) eqn:E; [discriminate|].
  apply in_app_or in I as [I|[<-|[]]]; [now apply (IH s H)|]. rewrite str_eqb_refl in E. discriminate.
Qed.
(* the indices point to the strings *)
Definition points (items : list str) (i : N) (o : option str) : Prop := match o with None => i = 0%N | Some s => exists j, i = N.of_nat (S j) /\ nth_error items j = Some s end.
(* no string is new *)
Lemma closed_loop : forall checked rows items cur, incl (valid_strings rows) items -> (forall j, j < length items -> cur <> N.of_nat (S j)) ->
  exists idx, dict_loop checked rows (entries items) cur = Some (idx, []) /\ Forall2 (points items) idx rows.
Proof.
  intros checked. induction rows as [|[s|] rows IH]; intros items cur I C.
  - exists []. split; [reflexivity|constructor].
  - destruct (IH items cur) as (idx & I1 & I2); [intros x X; apply I; right; exact X|exact C|]. cbn [dict_loop]. destruct (lookup s (entries items)) as [e|] eqn:L.
    + destruct (lookup_some items s e L) as [j [-> J]]. assert (JL : j < length items) by (apply nth_error_Some; congruence). specialize (C j JL).
      replace (N.of_nat (S j) =? cur)%N with false by lia. rewrite I1. exists (N.of_nat (S j) :: idx). split; [reflexivity|]. constructor; [exists j; auto|exact I2].
    + exfalso. apply (lookup_none items s L). apply I. left. reflexivity.
  - destruct (IH items cur) as (idx & I1 & I2); [exact I|exact C|]. cbn [dict_loop]. rewrite I1. exists (0%N :: idx). split; [reflexivity|]. constructor; [reflexivity|exact I2].
Qed.
Lemma nodup_snoc {A} : forall (l : list A) x, NoDup l -> ~ In x l -> NoDup (l ++ [x]).
Proof. intros l x N I. rewrite <- (rev_involutive (l ++ [x])). apply NoDup_rev. rewrite rev_app_distr. cbn. constructor; [intros X; now apply in_rev in X|now apply NoDup_rev]. Qed.
Lemma dict_loop_ok : forall checked rows items, NoDup items ->
  (forall more, NoDup (items ++ more) -> incl more (valid_strings rows) -> length (items ++ more) <= limit checked) ->
  exists idx more, dict_loop checked rows (entries items) (N.of_nat (S (length items))) = Some (idx, more) /\ NoDup (items ++ more) /\ incl more (valid_strings rows) /\
    Forall2 (points (items ++ more)) idx rows.
Proof.
  intros checked. induction rows as [|[s|] rows IH]; intros items ND B.
  - exists [], []. rewrite app_nil_r. cbn. repeat split; auto. intros x [].
  - cbn [dict_loop]. destruct (lookup s (entries items)) as [e|] eqn:L.
    + destruct (lookup_some items s e L) as [j [-> J]]. assert (JL : j < length items) by (apply nth_error_Some; congruence).
      replace (N.of_nat (S j) =? N.of_nat (S (length items)))%N with false by lia.
      destruct (IH items ND) as (idx & more & I1 & I2 & I3 & I4). { intros more M1 M2. apply B; [exact M1|]. intros x X. cbn [valid_strings flat_map app]. right. now apply M2. }
      rewrite I1. cbn [omap fst snd]. exists (N.of_nat (S j) :: idx), more. split; [reflexivity|]. split; [exact I2|]. split; [intros x X; right; now apply I3|]. constructor; [|exact I4].
      exists j. split; [reflexivity|]. now rewrite nth_error_app1.
    + pose proof (lookup_none items s L) as NI. rewrite N.eqb_refl. pose proof (nodup_snoc items s ND NI) as ND'.
      assert (LE : length items + 1 <= limit checked). { specialize (B [s] ND'). rewrite app_length in B. apply B. intros x [<-|[]]. left. reflexivity. }
      rewrite <- entries_snoc. unfold next_index. destruct (N.of_nat (S (length items)) =? 255)%N eqn:E255.
      * (* the last index: nothing new follows *)
        destruct checked; [unfold limit in LE; lia|]. cbn [obind]. destruct (closed_loop false rows (items ++ [s]) 0%N) as (idx & I1 & I2).
        { intros x X. destruct (in_dec (list_eq_dec Nat.eq_dec) x (items ++ [s])) as [Y|Y]; [exact Y|exfalso]. pose proof (nodup_snoc _ x ND' Y) as ND2. rewrite <- app_assoc in ND2. specialize (B _ ND2). rewrite app_length in B.
          cbn [app length] in B. assert (length items + 2 <= limit false); [apply B; intros z [<-|[<-|[]]]; [left; reflexivity|right; exact X]|]. unfold limit in H. lia. }
        { intros j _. lia. }
        rewrite I1. cbn [omap fst snd]. exists (N.of_nat (S (length items)) :: idx), [s]. split; [reflexivity|]. split; [exact ND'|]. split; [intros x [<-|[]]; left; reflexivity|]. constructor; [|exact I2].
        exists (length items). split; [reflexivity|]. now rewrite nth_error_app2, Nat.sub_diag.
      * cbn [obind]. destruct (IH (items ++ [s]) ND') as (idx & more & I1 & I2 & I3 & I4).
        { intros more M1 M2. rewrite <- app_assoc in *. apply B; [exact M1|]. intros x [<-|X]; [left; reflexivity|right; now apply M2]. }
        rewrite app_length, Nat.add_1_r in I1. replace (N.of_nat (S (length items)) + 1)%N with (N.of_nat (S (S (length items)))) by lia. rewrite I1. cbn [omap fst snd].
        rewrite <- app_assoc in I2, I4. cbn [app] in I2, I4. exists (N.of_nat (S (length items)) :: idx), (s :: more).
        split; [reflexivity|]. split; [exact I2|]. split; [intros x [<-|X]; [left; reflexivity|right; now apply I3]|]. constructor; [|exact I4]. exists (length items). split; [reflexivity|]. now rewrite nth_error_app2, Nat.sub_diag.
  - destruct (IH items ND B) as (idx & more & I1 & I2 & I3 & I4). cbn [dict_loop]. rewrite I1. exists (0%N :: idx), more. split; [reflexivity|]. split; [exact I2|]. split; [exact I3|]. constructor; [reflexivity|exact I4].
Qed.
Lemma dict_start : forall checked rows, distinct rows <= limit checked -> exists idx items, dict_loop checked rows [] 1%N = Some (idx, items) /\ length items <= limit checked /\ Forall2 (points items) idx rows.
Proof.
  intros checked rows D. assert (B : forall more, NoDup more -> incl more (valid_strings rows) -> length more <= limit checked).
  { intros more M1 M2. unfold distinct in D. pose proof (NoDup_incl_length M1 (l' := nodup (list_eq_dec Nat.eq_dec) (valid_strings rows))) as Q.
    etransitivity; [apply Q|exact D]. intros x X. apply nodup_In. now apply M2. }
  destruct (dict_loop_ok checked rows [] (NoDup_nil _) B) as (idx & items & I1 & I2 & I3 & I4). exists idx, items. split; [exact I1|]. split; [now apply B|exact I4].
Qed.

(* ---- the items ---- *)
Lemma lists_concat : forall items k pre, length pre = k -> lists_between (k :: runs k (map (@length nat) items)) [] (pre ++ concat items) = map Some items.
Proof.
  induction items as [|s items IH]; intros k pre L; [reflexivity|]. cbn [map runs concat].
  change (lists_between (k :: (k + length s) :: runs (k + length s) (map (@length nat) items)) [] (pre ++ s ++ concat items)) with
    (Some (slice k (k + length s) (pre ++ s ++ concat items)) :: lists_between ((k + length s) :: runs (k + length s) (map (@length nat) items)) [] (pre ++ s ++ concat items)).
  f_equal.
  - f_equal. unfold slice. rewrite skipn_app, <- L, skipn_all, Nat.sub_diag. cbn [skipn app]. replace (length pre + length s - length pre) with (length s) by lia. rewrite firstn_app, firstn_all, Nat.sub_diag. cbn [firstn]. apply app_nil_r.
  - rewrite app_assoc. apply IH. rewrite app_length. lia.
Qed.
Lemma items_ok : forall items, array_ok (items_array items) /\ lists_of (items_array items) = match items with [] => [None] | _ => map Some items end /\
  BinEncModel.rows_in_array (items_array items) = Nat.max 1 (length items).
Proof.
  intros items. destruct items as [|s items]; [split; [|split; reflexivity]; unfold array_ok; cbn; repeat split; lia|]. assert (EA : items_array (s :: items) = {| la_offsets := 0 :: runs 0 (map (@length nat) (s :: items)); la_valid := None; la_values := concat (s :: items) |}) by reflexivity. rewrite EA. set (l := s :: items).
  split; [|split].
  - unfold array_ok. cbn [la_offsets la_valid la_values]. assert (S1 : forall ls k, sorted_from k (runs k ls)). { induction ls as [|x ls IH]; intros k; [exact Logic.I|]. cbn [runs sorted_from]. split; [lia|apply IH]. }
    split; [apply S1|]. split; [|exact Logic.I]. assert (S2 : forall ls k, last (k :: runs k ls) 0 = k + sumn ls). { induction ls as [|x ls IH]; intros k; [cbn; lia|]. cbn [runs]. change (last (k :: (k + x) :: runs (k + x) ls) 0) with (last ((k + x) :: runs (k + x) ls) 0). rewrite IH. cbn [sumn]. lia. }
    rewrite S2. assert (S3 : forall l : list str, length (concat l) = sumn (map (@length nat) l)). { induction l0 as [|x l0 IH]; [reflexivity|]. cbn. now rewrite app_length, IH. } rewrite S3. lia.
  - unfold lists_of. cbn [la_offsets la_valid la_values]. apply (lists_concat l 0 []). reflexivity.
  - unfold BinEncModel.rows_in_array. cbn [la_offsets length]. assert (S4 : forall ls k, length (runs k ls) = length ls). { induction ls as [|x ls IH]; intros k; [reflexivity|]. cbn. now rewrite IH. } rewrite S4, map_length. unfold l. cbn. now rewrite ?Nat.sub_0_r.
Qed.
Lemma map_hd_bytes : forall l : list N, map (fun v : list N => hd 0%N v) (map (fun i => [i]) l) = l.
Proof. induction l as [|x l IH]; [reflexivity|]. cbn. now rewrite IH. Qed.
Lemma all_rows_map {A B} : forall (f : A -> option B) l m, Forall2 (fun x y => f x = Some y) l m -> all_rows (map f l) = Some m.
Proof. intros f l m F. induction F as [|x y l m X F IH]; [reflexivity|]. cbn [map all_rows]. now rewrite X, IH. Qed.
Lemma Forall2_sel {A B} : forall (P : A -> B -> Prop) rs skip n l m, Forall2 P l m -> Forall2 P (sel rs skip n l) (sel rs skip n m).
Proof.
  intros P rs skip n l m F. assert (SK : forall k l m, Forall2 P l m -> Forall2 P (skipn k l) (skipn k m)). { induction k as [|k IH]; intros x y H; [exact H|]. destruct H; cbn; [constructor|auto]. }
  assert (FI : forall k l m, Forall2 P l m -> Forall2 P (firstn k l) (firstn k m)). { induction k as [|k IH]; intros x y H; [constructor|]. destruct H; cbn; constructor; auto. }
  unfold sel. apply FI, SK. induction rs as [|r rs IH]; [constructor|]. cbn [flat_map]. apply Forall2_app; [|exact IH]. unfold slice. apply FI, SK, F.
Qed.
Theorem sdict_exact : forall checked arrs rs skip n, Forall array_ok arrs -> distinct (BinEncProofs.strings_of arrs) <= limit checked -> BinEncProofs.strings_of arrs <> [] ->
  ranges_in (length (BinEncProofs.strings_of arrs)) rs -> skip + n <= rows_of rs ->
  read_sdict checked arrs rs skip n = Some (firstn n (skipn skip (flat_map (fun r => slice (fst r) (snd r) (BinEncProofs.strings_of arrs)) rs))).
Proof.
  intros checked arrs rs skip n A D NE R1 R2. set (rows := BinEncProofs.strings_of arrs) in *. destruct (dict_start checked rows D) as (idx & items & L1 & L2 & L3).
  assert (LI : length idx = length rows) by (clear - L3; induction L3; [reflexivity|cbn; now f_equal]).
  assert (P : 0 < length idx) by (rewrite LI; destruct rows; [now destruct NE|cbn; lia]).
  unfold read_sdict, sdict_encode. fold rows. rewrite L1. cbn [obind fst snd].
  pose (arr := AFixed (map (fun i => [i]) idx) None). assert (W : Forall (f_wf (TFixed 1)) [arr]). { constructor; [|constructor]. split; [|exact Logic.I]. apply Forall_forall. intros x X. apply in_map_iff in X as [y [<- _]]. reflexivity. }
  assert (NB : no_bits (TFixed 1) [arr]) by (repeat constructor).
  destruct (page_ok (TFixed 1) [arr] (length idx)) with (i := 0) as (y & e & E & R); [cbn; lia|exact W|cbn; rewrite map_length; lia|exact P|]. fold arr. rewrite E. cbn [obind]. unfold sdict_read. cbn [sp_bufs sp_idx].
  destruct (items_ok items) as (I1 & I2 & I3).
  assert (IT : sdict_items {| sp_bufs := buffers y; sp_idx := e; sp_items := BinEncModel.bin_encode (BinEncModel.to_block [items_array items]); sp_n := BinEncModel.rows_in_array (items_array items) |} = Some (lists_of (items_array items))).
  { unfold sdict_items. cbn [sp_items sp_n]. set (st := BinEncProofs.strings_of [items_array items]). assert (ST : st = lists_of (items_array items)) by (unfold st, BinEncProofs.strings_of; cbn [map concat]; apply app_nil_r).
    assert (LS : length st = BinEncModel.rows_in_array (items_array items)). { rewrite ST, I2, I3. destruct items; [reflexivity|]. rewrite map_length. cbn [length]. lia. }
    rewrite <- LS. assert (WW : PageProofs.wanted st [(0, length st)] = st). { unfold PageProofs.wanted. cbn [flat_map fst snd]. unfold slice. cbn [skipn]. rewrite Nat.sub_0_r, firstn_all. apply app_nil_r. }
    destruct (BinEncProofs.strings_exact [items_array items] [(0, length st)] 0 (length st)) as (d & D1 & _ & D2).
    { constructor; [exact I1|constructor]. } { split; [|constructor]. constructor; [|constructor]. cbn [fst snd]. fold st. rewrite LS, I3. lia. } { fold st. rewrite WW. lia. }
    rewrite D1. cbn [omap]. rewrite D2. fold st. rewrite WW. cbn [Nat.add]. unfold slice. cbn [skipn]. rewrite Nat.sub_0_r, firstn_all. now rewrite ST. }
  rewrite IT. cbn [obind]. destruct (R (buffers y)) as (s & S & RR); [auto|]. rewrite S. cbn [obind].
  destruct (RR rs skip n) as (b & a & A1 & A2 & A3 & A4 & _ & A6). { now rewrite LI. } { exact R2. } { now right. }
  rewrite A1. cbn [obind]. rewrite A3. pose proof (into_shape _ _ _ A3) as SH. destruct a as [vals v| |]; try contradiction.
  assert (VN : v = None).
  { assert (FA : from_arrays (TFixed 1) [arr] (length idx) = BFixed 8 (flat_data [arr]) (length idx)).
    { cbn [from_arrays]. replace (length idx =? 0) with false by (symmetry; apply Nat.eqb_neq; lia). reflexivity. }
    rewrite FA in E. cbn [choose encode] in E. assert (EE : e = ENoNulls (EFlat 8 0)) by congruence. subst e. cbn [sched_of] in S. destruct (nth_error (buffers y) 0); [|discriminate]. cbn in S. injection S as <-.
    cbn [schedule_ranges decode] in A1. injection A1 as <-. cbn [into_arrow] in A3. destruct (_ <=? _); [|discriminate]. now injection A3 as _ <-. }
  subst v. unfold arr in A6. cbn [flat_map logical mask_with] in A6. rewrite app_nil_r, sel_map in A6.
  assert (VV : vals = sel rs skip n (map (fun i => [i]) idx)).
  { revert A6. generalize (sel rs skip n (map (fun i => [i]) idx)). clear. induction vals as [|x l IH]; intros [|y m] H; cbn in H; try discriminate; [reflexivity|]. injection H as -> H. f_equal. auto. }
  rewrite VV, <- (map_map (fun v : list N => hd 0%N v) (sdict_row (lists_of (items_array items)))), <- sel_map, map_hd_bytes. apply all_rows_map. change (firstn n (skipn skip (flat_map (fun r : range => slice (fst r) (snd r) rows) rs))) with (sel rs skip n rows).
  apply Forall2_sel. rewrite I2. clear - L3. induction L3 as [|i o l m Q L3 IH]; constructor; [|exact IH]. unfold sdict_row. destruct o as [s|]; [|cbn in Q; subst; reflexivity].
  destruct Q as [j [-> J]]. replace (N.of_nat (S j) =? 0)%N with false by lia. replace (N.to_nat (N.of_nat (S j) - 1)) with j by lia. destruct items as [|x items]; [destruct j; discriminate|]. rewrite nth_error_map, J. reflexivity.
Qed.

(* ---- the choice ---- *)
Lemma few_end : forall est th rows seen, few est th seen rows = true -> valid_strings rows = [] \/ est (seen ++ valid_strings rows) < th.
Proof.
  intros est th. induction rows as [|[s|] rows IH]; intros seen H; [now left| |].
  - right. cbn [few] in H. destruct (th <=? est (seen ++ [s])) eqn:E; [discriminate|]. apply Nat.leb_gt in E. change (valid_strings (Some s :: rows)) with (s :: valid_strings rows).
    destruct (IH _ H) as [Z|Z]; [now rewrite Z|]. rewrite <- app_assoc in Z. exact Z.
  - exact (IH seen H).
Qed.
(* an estimate that is at most [err] too low keeps the number of values within the indices *)
Theorem chosen_fits : forall est err th rows, (forall l, length (nodup (list_eq_dec Nat.eq_dec) l) <= est l + err) -> th + err <= 255 -> check_dict est th rows = true -> distinct rows <= limit true.
Proof.
  intros est err th rows E T C. unfold check_dict in C. destruct (length rows <? th); [discriminate|]. destruct (few_end est th rows [] C) as [Z|Z]; unfold distinct.
  - rewrite Z. cbn. lia.
  - cbn [app] in Z. specialize (E (valid_strings rows)). unfold limit. lia.
Qed.
Theorem chosen_exact : forall checked est err th arrs rs skip n, (forall l, length (nodup (list_eq_dec Nat.eq_dec) l) <= est l + err) -> th + err <= 255 ->
  check_dict est th (BinEncProofs.strings_of arrs) = true -> Forall array_ok arrs -> BinEncProofs.strings_of arrs <> [] ->
  ranges_in (length (BinEncProofs.strings_of arrs)) rs -> skip + n <= rows_of rs ->
  read_sdict checked arrs rs skip n = Some (firstn n (skipn skip (flat_map (fun r => slice (fst r) (snd r) (BinEncProofs.strings_of arrs)) rs))).
Proof.
  intros checked est err th arrs rs skip n E T C A NE R1 R2. apply sdict_exact; auto. pose proof (chosen_fits est err th _ E T C) as D. destruct checked; unfold limit in *; lia.
Qed.
