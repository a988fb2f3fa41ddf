(* A list layer through repetition and definition levels (C107). *)
From Coq Require Import List Arith Bool Lia.
From Verif Require Import Lib RepDefModel RepDefProofs RepDefRead.
Import ListNotations.
Local Open Scope nat_scope.

(* ---- specification ---- *)
(* the lists of an array: None is a null list, Some n one of n items *)
Fixpoint lens (os : list nat) : list nat := match os with a :: ((b :: _) as t) => (b - a) :: lens t | _ => [] end.
Definition lists_of (os : list nat) (v : option (list bool)) : list (option nat) :=
  match v with None => map Some (lens os) | Some vs => map (fun x : nat * bool => if snd x then Some (fst x) else None) (combine (lens os) vs) end.
Definition size (l : option nat) : nat := match l with Some n => n | None => 0 end.
(* an array: structs without nulls above, the lists, and the layers of the items, outermost first *)
Record larray := { la_above : nat; la_offsets : list nat; la_valid : option (list bool); la_below : list input }.
Definition la_lists (x : larray) : list (option nat) := lists_of (la_offsets x) (la_valid x).
Definition build_l (x : larray) : option builder :=
  fold_left (fun b i => obind b (add_input i)) (la_below x)
    (obind (fold_left (fun b i => obind b (add_input i)) (repeat (IItem None (length (la_offsets x) - 1)) (la_above x)) (Some new_builder)) (add_offsets (la_offsets x) (la_valid x))).
Definition larray_ok (a b : nat) (x : larray) : Prop :=
  la_above x = a /\ (match la_valid x with Some v => length v = length (la_offsets x) - 1 | None => True end) /\ array_ok (repeat KItem b) (la_below x) /\ exists bd, build_l x = Some bd.
Definition write_lists (p : list larray) : option levels := obind (sequence_opt (map build_l p)) serialize.

(* ---- layers of lists ---- *)
Fixpoint sums (acc : nat) (ls : list (option nat)) : list nat := match ls with [] => [] | l :: t => (acc + size l) :: sums (acc + size l) t end.
Fixpoint sp_of (idx : nat) (ls : list (option nat)) : list special :=
  match ls with [] => [] | None :: t => NullList idx :: sp_of (S idx) t | Some 0 :: t => EmptyList idx :: sp_of (S idx) t | Some (S _) :: t => sp_of (S idx) t end.
Definition is_empty (l : option nat) : bool := match l with Some 0 => true | _ => false end.
Definition layer_of (nullable : bool) (ls : list (option nat)) : layer := LOffsets (0 :: sums 0 ls) (sp_of 0 ls) (if nullable then Some (map is_some ls) else None) (existsb is_empty ls).
Definition total (ls : list (option nat)) : nat := sumn (map size ls).
Lemma sums_length : forall ls a, length (sums a ls) = length ls.
Proof. induction ls as [|l t IH]; intros a; cbn; auto. Qed.
Lemma sums_last : forall ls a, last (a :: sums a ls) 0 = a + total ls.
Proof. induction ls as [|l t IH]; intros a; [cbn; lia|]. cbn [sums]. change (last (a :: (a + size l) :: sums (a + size l) t) 0) with (last ((a + size l) :: sums (a + size l) t) 0). rewrite IH. unfold total. cbn. lia. Qed.
Lemma norm_nulls_step : forall idx last a b t v vs, norm_nulls idx last (a :: b :: t) (v :: vs) =
  if v then if b - a =? 0 then let '(o, s, _) := norm_nulls (S idx) last (b :: t) vs in (last :: o, EmptyList idx :: s, true)
            else let '(o, s, e) := norm_nulls (S idx) (last + (b - a)) (b :: t) vs in ((last + (b - a)) :: o, s, e)
  else let '(o, s, e) := norm_nulls (S idx) last (b :: t) vs in (last :: o, NullList idx :: s, e).
Proof. reflexivity. Qed.
Lemma norm_valid_step : forall idx last a b t, norm_valid idx last (a :: b :: t) =
  let '(o, s, e) := norm_valid (S idx) (last + (b - a)) (b :: t) in
  if b - a =? 0 then ((last + (b - a)) :: o, EmptyList idx :: s, true) else ((last + (b - a)) :: o, s, e).
Proof. reflexivity. Qed.
Lemma lists_step : forall a b t v vs, lists_of (a :: b :: t) (Some (v :: vs)) = (if v then Some (b - a) else None) :: lists_of (b :: t) (Some vs).
Proof. reflexivity. Qed.
Lemma lists_step' : forall a b t, lists_of (a :: b :: t) None = Some (b - a) :: lists_of (b :: t) None.
Proof. reflexivity. Qed.
Lemma norm_nulls_eq : forall os vs idx a, norm_nulls idx a os vs = (sums a (lists_of os (Some vs)), sp_of idx (lists_of os (Some vs)), existsb is_empty (lists_of os (Some vs))).
Proof.
  induction os as [|x os IH]; intros vs idx a; [reflexivity|]. destruct os as [|y os]; [reflexivity|]. destruct vs as [|v vs]; [reflexivity|].
  rewrite norm_nulls_step, lists_step, !IH. destruct v.
  - destruct (y - x) as [|k]; cbn [Nat.eqb sums size sp_of existsb is_empty orb]; [rewrite Nat.add_0_r|]; reflexivity.
  - cbn [sums size sp_of existsb is_empty orb]. rewrite Nat.add_0_r. reflexivity.
Qed.
Lemma norm_valid_eq : forall os idx a, norm_valid idx a os = (sums a (lists_of os None), sp_of idx (lists_of os None), existsb is_empty (lists_of os None)).
Proof.
  induction os as [|x os IH]; intros idx a; [reflexivity|]. destruct os as [|y os]; [reflexivity|].
  rewrite norm_valid_step, lists_step', !IH. destruct (y - x) as [|k]; reflexivity.
Qed.
Lemma lens_length : forall os, length (lens os) = length os - 1.
Proof. induction os as [|x os IH]; [reflexivity|]. destruct os as [|y os]; [reflexivity|]. cbn [lens length] in *. lia. Qed.
Lemma lists_length : forall os v, match v with Some v => length v = length os - 1 | None => True end -> length (lists_of os v) = length os - 1.
Proof. intros os [v|] H; unfold lists_of; rewrite map_length; [rewrite combine_length|]; rewrite lens_length; lia. Qed.
Lemma lists_bits : forall os v, length v = length os - 1 -> map is_some (lists_of os (Some v)) = v.
Proof.
  intros os v L. unfold lists_of. rewrite <- lens_length in L. rewrite map_map. revert v L. induction (lens os) as [|n t IH]; intros [|x v] L; try discriminate; [reflexivity|]. cbn. rewrite IH by (cbn in L; lia). destruct x; reflexivity.
Qed.
Lemma lists_all : forall os, Forall (fun l => is_some l = true) (lists_of os None).
Proof. intros os. unfold lists_of. apply Forall_map. rewrite Forall_forall. reflexivity. Qed.
Lemma add_offsets_eq : forall os v b b', match v with Some v => length v = length os - 1 | None => True end -> add_offsets os v b = Some b' ->
  b' = push b (layer_of (is_some v) (lists_of os v)) (total (lists_of os v)) /\ len_is b (length (lists_of os v)) = true.
Proof.
  intros os v b b' H E. unfold add_offsets in E. destruct v as [v|]; [rewrite norm_nulls_eq in E|rewrite norm_valid_eq in E].
  all: rewrite sums_last, Nat.add_0_l in E; cbn [length] in E; rewrite sums_length in E; rewrite Nat.sub_succ, Nat.sub_0_r in E; destruct (len_is b _) eqn:L; [|discriminate]; injection E as <-; split; [|reflexivity]; unfold layer_of; cbn [is_some].
  - rewrite lists_bits by exact H. reflexivity.
  - reflexivity.
Qed.
(* the layers of several arrays *)
Lemma sums_app : forall a b x, sums x (a ++ b) = sums x a ++ sums (x + total a) b.
Proof. induction a as [|l a IH]; intros b x; cbn [app sums]; [unfold total; cbn; now rewrite Nat.add_0_r|]. rewrite IH. cbn. unfold total. cbn. rewrite Nat.add_assoc. reflexivity. Qed.
Lemma sums_shift : forall ls x k, map (fun y => y + k) (sums x ls) = sums (x + k) ls.
Proof. induction ls as [|l t IH]; intros x k; [reflexivity|]. cbn. rewrite IH. replace (x + size l + k) with (x + k + size l) by lia. reflexivity. Qed.
Lemma sp_of_app : forall a b i, sp_of i (a ++ b) = sp_of i a ++ sp_of (i + length a) b.
Proof. induction a as [|l a IH]; intros b i; [cbn; now rewrite Nat.add_0_r|]. cbn [app sp_of length]. rewrite !IH, Nat.add_succ_r. destruct l as [[|k]|]; reflexivity. Qed.
Lemma sp_of_move : forall ls i k, map (sp_move k) (sp_of i ls) = sp_of (i + k) ls.
Proof. induction ls as [|l t IH]; intros i k; [reflexivity|]. cbn [sp_of]. destruct l as [[|n]|]; cbn [map sp_move]; rewrite IH; reflexivity. Qed.
Lemma total_app : forall a b, total (a ++ b) = total a + total b.
Proof. intros a b. unfold total. now rewrite map_app, sumn_app. Qed.
Definition valid_or (x : bool * list (option nat)) : Prop := fst x = false -> Forall (fun l => is_some l = true) (snd x).
Lemma concat_lists : forall (xs : list (bool * list (option nat))), xs <> [] -> Forall valid_or xs ->
  concat_layers (map (fun x => layer_of (fst x) (snd x)) xs) = layer_of (existsb fst xs) (flat_map snd xs).
Proof.
  intros xs N F. unfold concat_layers. assert (E : exists o s v e, last (map (fun x => layer_of (fst x) (snd x)) xs) (LValidity None 0) = LOffsets o s v e).
  { clear F. induction xs as [|x t IH]; [congruence|]. destruct t as [|y t]; [do 4 eexists; reflexivity|]. cbn [map last] in *. apply IH. discriminate. }
  destruct E as [o [s [v [e ->]]]].
  assert (G : forall done, fold_left (fun '(o, s) l => (o ++ map (fun x => x + last o 0) (tl (l_offsets l)), s ++ map (sp_move (length o - 1)) (l_specials l))) (map (fun x => layer_of (fst x) (snd x)) xs) (0 :: sums 0 done, sp_of 0 done) = (0 :: sums 0 (done ++ flat_map snd xs), sp_of 0 (done ++ flat_map snd xs))).
  { clear. induction xs as [|x t IH]; intros done; [cbn; now rewrite app_nil_r|]. cbn [map fold_left flat_map]. unfold layer_of at 2 3. cbn [l_offsets l_specials tl]. rewrite sums_last, sums_shift, sp_of_move. cbn [length]. rewrite sums_length, Nat.sub_succ, Nat.sub_0_r, Nat.add_0_l.
    rewrite app_assoc. rewrite <- IH. rewrite sums_app, sp_of_app. reflexivity. }
  specialize (G []). cbn [app sums sp_of] in G. rewrite G. unfold layer_of. f_equal.
  - assert (X : existsb (fun l => is_some (l_valid l)) (map (fun x => layer_of (fst x) (snd x)) xs) = existsb fst xs) by (clear; induction xs as [|[[|] l] t IH]; [reflexivity|reflexivity|exact IH]).
    assert (B : flat_map bits (map (fun x => layer_of (fst x) (snd x)) xs) = map is_some (flat_map snd xs)).
    { clear -F. induction F as [|[b l] t H F IH]; [reflexivity|]. cbn [map flat_map]. rewrite map_app, IH. f_equal. unfold bits, layer_of. cbn [l_valid l_values fst snd length]. destruct b; [reflexivity|]. rewrite sums_length, Nat.sub_succ, Nat.sub_0_r. specialize (H eq_refl). cbn [snd] in H. clear -H. induction H as [|x l H F IH]; [reflexivity|]. cbn. rewrite IH, H. reflexivity. }
    unfold layer_of in X, B. rewrite X, B. reflexivity.
  - clear. induction xs as [|x t IH]; [reflexivity|]. cbn [map existsb flat_map]. rewrite existsb_app, IH. reflexivity.
Qed.

(* ---- recording ---- *)
Definition start_rep (r : nat) (ls : list (option nat)) : list nat := flat_map (fun l => match l with Some (S k) => r :: repeat 0 k | _ => [] end) ls.
Fixpoint starts (a : nat) (ls : list (option nat)) : list nat := match ls with [] => [] | l :: t => a :: starts (a + size l) t end.
Fixpoint fulls (a e : nat) (ls : list (option nat)) : list nat := match ls with [] => [] | l :: t => (a + e) :: fulls (a + size l) (if size l =? 0 then S e else e) t end.
Lemma set_at_app : forall A (pre : list A) x y t, set_at (length pre) x (pre ++ y :: t) = Some (pre ++ x :: t).
Proof. induction pre as [|z pre IH]; intros x y t; [reflexivity|]. cbn. rewrite IH. reflexivity. Qed.
Lemma repeat_split : forall A (x : A) a b, repeat x (a + b) = repeat x a ++ repeat x b.
Proof. intros. apply repeat_app. Qed.
Lemma walk_step : forall r a b t e rep, walk None r (a :: b :: t) e rep =
  if a =? b then omap (fun '(lo, lf, r) => (a :: lo, (a + e) :: lf, r)) (walk None r (b :: t) (S e) rep)
  else obind (set_at a r rep) (fun rp => omap (fun '(lo, lf, r) => (a :: lo, (a + e) :: lf, r)) (walk None r (b :: t) e rp)).
Proof. reflexivity. Qed.
Lemma walk_lists : forall ls r a e pre, length pre = a -> walk None r (a :: sums a ls) e (pre ++ repeat 0 (total ls)) = Some (starts a ls, fulls a e ls, pre ++ start_rep r ls).
Proof.
  induction ls as [|l t IH]; intros r a e pre L; [reflexivity|]. cbn [sums starts fulls]. rewrite walk_step. unfold total. cbn [map sumn]. fold (total t).
  destruct l as [[|k]|]; cbn [size Nat.eqb].
  - rewrite Nat.add_0_r, Nat.eqb_refl, Nat.add_0_l, (IH r a (S e) pre L). reflexivity.
  - replace (a =? a + S k) with false by (symmetry; apply Nat.eqb_neq; lia). cbn [Nat.add repeat]. rewrite <- L, set_at_app. cbn [obind]. rewrite repeat_split.
    replace (pre ++ r :: repeat 0 k ++ repeat 0 (total t)) with ((pre ++ r :: repeat 0 k) ++ repeat 0 (total t)) by (rewrite <- app_assoc; reflexivity).
    rewrite (IH r (length pre + S k) e); [|rewrite app_length; cbn; rewrite repeat_length; reflexivity]. cbn [omap]. rewrite <- app_assoc. reflexivity.
  - rewrite Nat.add_0_r, Nat.eqb_refl, Nat.add_0_l, (IH r a (S e) pre L). reflexivity.
Qed.
Fixpoint specs (nl el r idx : nat) (ls : list (option nat)) : list srec :=
  match ls with
  | [] => []
  | None :: t => {| s_pos := idx; s_def := nl; s_rep := r |} :: specs nl el r (S idx) t
  | Some 0 :: t => {| s_pos := idx; s_def := el; s_rep := r |} :: specs nl el r (S idx) t
  | Some (S k) :: t => specs nl el r (idx + S k) t
  end.
Lemma merge_lists : forall ls nl el r full j a e ins, (forall i, nth_error (fulls a e ls) i = nth_error full (j + i)) ->
  merge_specials (length (sp_of j ls)) full nl el r ins [] (sp_of j ls) = Some (specs nl el r (a + e) ls).
Proof.
  induction ls as [|l t IH]; intros nl el r full j a e ins H; [reflexivity|].
  assert (H0 := H 0). rewrite Nat.add_0_r in H0. cbn [fulls nth_error] in H0.
  assert (H1 : forall i, nth_error (fulls (a + size l) (if size l =? 0 then S e else e) t) i = nth_error full (S j + i)) by (intros i; specialize (H (S i)); cbn [fulls nth_error] in H; rewrite H; f_equal; lia).
  cbn [sp_of specs]. destruct l as [[|k]|]; cbn [size Nat.eqb] in H1; cbn [length merge_specials sp_pos].
  - rewrite <- H0. cbn [obind]. rewrite (IH _ _ _ _ (S j) (a + 0) (S e)) by exact H1. cbn [omap]. repeat f_equal. lia.
  - rewrite (IH _ _ _ _ (S j) (a + S k) e) by exact H1. f_equal. f_equal. lia.
  - rewrite <- H0. cbn [obind]. rewrite (IH _ _ _ _ (S j) (a + 0) (S e)) by exact H1. cbn [omap]. repeat f_equal. lia.
Qed.
(* the levels of the page *)
Definition out_rep (r : nat) (ls : list (option nat)) : list nat := flat_map (fun l => match l with Some (S k) => r :: repeat 0 k | _ => [r] end) ls.
Fixpoint out_def (nl el : nat) (ls : list (option nat)) (ds : list nat) : list nat :=
  match ls with
  | [] => []
  | None :: t => nl :: out_def nl el t ds
  | Some 0 :: t => el :: out_def nl el t ds
  | Some (S k) :: t => firstn (S k) ds ++ out_def nl el t (skipn (S k) ds)
  end.
(* the next definition level of an item; without definition levels it is zero *)
Definition def_next (def : option (list nat)) (d : nat) (def' : option (list nat)) : Prop :=
  (exists ds, def = Some (d :: ds) /\ def' = Some ds) \/ (def = None /\ def' = None /\ d = 0).
Definition away (idx : nat) (specials : list srec) : Prop := match specials with s :: _ => idx < s_pos s | [] => True end.
Lemma collapse_put : forall fuel idx specials r rep def d def' rr rd sp, away idx specials -> def_next def d def' -> (sp = true -> exists rr', rr = r :: rr') ->
  collapse (S fuel) idx specials (r :: rep) def rr rd sp = collapse fuel (S idx) specials rep def' (r :: rr) (d :: rd) false.
Proof.
  intros fuel idx specials r rep def d def' rr rd sp A D P. cbn [collapse].
  assert (I : forall k, match def with Some [] => None | Some (d :: def') => Some (r, d, rep, Some def') | None => Some (r, 0, rep, None) end = Some (r, d, rep, def') /\
              match sp with true => match rr with r0 :: rev' => k (r0 :: r :: rev') | [] => k (r :: rr) end | false => k (r :: rr) end = (k (r :: rr) : option (list nat * list nat))).
  { intros k. split; [destruct D as [[ds [-> ->]]|[-> [-> ->]]]; reflexivity|]. destruct sp; [|reflexivity]. destruct (P eq_refl) as [rr' ->]. reflexivity. }
  destruct (I (fun x => collapse fuel (S idx) specials rep def' x (d :: rd) false)) as [I1 I2]. rewrite I1. cbn [obind].
  destruct specials as [|s t]; [|cbn in A; destruct (Nat.eqb_spec (s_pos s) idx); [lia|]]; rewrite <- I2 at 2; destruct sp, rr; reflexivity.
Qed.
Lemma collapse_sp : forall fuel s t rep def rr rd sp, collapse (S fuel) (s_pos s) (s :: t) rep def rr rd sp = collapse fuel (S (s_pos s)) t rep def (s_rep s :: rr) (s_def s :: rd) true.
Proof. intros. cbn [collapse]. rewrite Nat.eqb_refl. reflexivity. Qed.
(* the definition levels left, [ds] of items *)
Definition def_rest (def : option (list nat)) (ds : list nat) : Prop := def = Some ds \/ (def = None /\ ds = repeat 0 (length ds)).
Lemma collapse_items : forall ds idx specials rep def rr rd fuel more, (match specials with s :: _ => idx + length ds <= s_pos s | [] => True end) -> def_rest def (ds ++ more) ->
  exists def', def_rest def' more /\ collapse (length ds + fuel) idx specials (repeat 0 (length ds) ++ rep) def rr rd false = collapse fuel (idx + length ds) specials rep def' (repeat 0 (length ds) ++ rr) (rev ds ++ rd) false.
Proof.
  induction ds as [|d ds IH]; intros idx specials rep def rr rd fuel more A D; [exists def; cbn; rewrite Nat.add_0_r; auto|].
  assert (N : exists def1, def_next def d def1 /\ def_rest def1 (ds ++ more)).
  { destruct D as [->|[-> E]]; [exists (Some (ds ++ more)); split; [left; eexists; split; reflexivity|left; reflexivity]|]. cbn in E. injection E as E0 E3. subst d. exists None. split; [right; auto|right; split; [reflexivity|exact E3]]. }
  destruct N as [def1 [N1 N2]]. cbn [length Nat.add repeat app]. rewrite (collapse_put _ _ _ _ _ _ d def1); [|destruct specials; cbn in *; [exact Logic.I|lia]|exact N1|discriminate].
  destruct (IH (S idx) specials rep def1 (0 :: rr) (d :: rd) fuel more) as [def' [E1 E2]]; [destruct specials; [exact Logic.I|cbn in A; lia]|exact N2|]. exists def'. split; [exact E1|]. rewrite E2. cbn [rev]. rewrite <- app_assoc. cbn [app]. f_equal; [lia|]. rewrite app_comm_cons, (repeat_cons (length ds) 0), <- app_assoc. reflexivity.
Qed.
Lemma specs_from : forall ls nl el r idx, match specs nl el r idx ls with s :: _ => idx <= s_pos s | [] => True end.
Proof.
  induction ls as [|[[|k]|] t IH]; intros nl el r idx; cbn [specs]; [exact Logic.I|cbn; lia| |cbn; lia]. specialize (IH nl el r (idx + S k)). destruct (specs nl el r (idx + S k) t); [exact Logic.I|lia].
Qed.
Lemma out_rep_length : forall ls r nl el idx, length (out_rep r ls) = length (start_rep r ls) + length (specs nl el r idx ls).
Proof.
  induction ls as [|[[|k]|] t IH]; intros r nl el idx; [reflexivity| | |].
  - unfold out_rep, start_rep in *. cbn [flat_map specs app length]. rewrite (IH r nl el (S idx)). lia.
  - unfold out_rep, start_rep in *. cbn [flat_map specs]. rewrite !app_length, (IH r nl el (idx + S k)). lia.
  - unfold out_rep, start_rep in *. cbn [flat_map specs app length]. rewrite (IH r nl el (S idx)). lia.
Qed.
Lemma collapse_lists : forall ls nl el r idx def ds rr rd sp, length ds = total ls -> def_rest def ds -> (sp = true -> exists rr', rr = r :: rr') ->
  collapse (length (out_rep r ls)) idx (specs nl el r idx ls) (start_rep r ls) def rr rd sp = Some (rev rr ++ out_rep r ls, rev rd ++ out_def nl el ls ds).
Proof.
  induction ls as [|l t IH]; intros nl el r idx def ds rr rd sp L D P; [cbn; rewrite !app_nil_r; reflexivity|].
  assert (SPC : forall x, length ds = total t -> collapse (S (length (out_rep r t))) idx ({| s_pos := idx; s_def := x; s_rep := r |} :: specs nl el r (S idx) t) (start_rep r t) def rr rd sp = Some (rev rr ++ r :: out_rep r t, rev rd ++ x :: out_def nl el t ds)).
  { intros x Lx. set (s := {| s_pos := idx; s_def := x; s_rep := r |}). change idx with (s_pos s) at 1. rewrite collapse_sp. change (s_pos s) with idx. rewrite (IH nl el r (S idx) def ds); [|exact Lx|exact D|intros _; exists rr; reflexivity]. cbn [s_rep s_def s rev]. rewrite <- !app_assoc. reflexivity. }
  destruct l as [[|k]|].
  - exact (SPC el L).
  - unfold total in L. cbn [map size sumn] in L. fold (total t) in L.
    assert (SP : ds = firstn (S k) ds ++ skipn (S k) ds) by (symmetry; apply firstn_skipn). assert (L1 : length (firstn (S k) ds) = S k) by (apply firstn_length_le; lia). assert (L2 : length (skipn (S k) ds) = total t) by (rewrite skipn_length; lia).
    cbn [out_def]. set (m := skipn (S k) ds) in *. destruct (firstn (S k) ds) as [|d es] eqn:Q; [discriminate|]. cbn [length] in L1. injection L1 as L1.
    assert (N : exists def1, def_next def d def1 /\ def_rest def1 (es ++ m)).
    { rewrite SP in D. destruct D as [->|[-> E]]; [exists (Some (es ++ m)); split; [left; eexists; split; reflexivity|left; reflexivity]|]. cbn in E. injection E as E0 E3. subst d. exists None. split; [right; auto|right; split; [reflexivity|exact E3]]. }
    destruct N as [def1 [N1 N2]]. unfold out_rep, start_rep. cbn [flat_map specs]. fold (out_rep r t). fold (start_rep r t). rewrite app_length. cbn [length app Nat.add]. rewrite repeat_length.
    pose proof (specs_from t nl el r (idx + S k)) as SF.
    rewrite (collapse_put _ _ _ _ _ _ d def1); [|unfold away; destruct (specs nl el r (idx + S k) t); [exact Logic.I|lia]|exact N1|exact P]. rewrite <- L1.
    destruct (collapse_items es (S idx) (specs nl el r (idx + S (length es)) t) (start_rep r t) def1 (r :: rr) (d :: rd) (length (out_rep r t)) m) as [def' [E1 E2]]; [rewrite L1; destruct (specs nl el r (idx + S k) t); [exact Logic.I|lia]|exact N2|].
    rewrite E2. replace (S idx + length es) with (idx + S (length es)) by lia. rewrite (IH nl el r _ def' m); [|exact L2|exact E1|discriminate]. rewrite !rev_app_distr, rev_involutive. cbn [rev]. rewrite <- !app_assoc. cbn [app]. repeat f_equal.
    clear. induction (length es) as [|n IHn]; [reflexivity|]. cbn [repeat rev]. rewrite IHn. symmetry. apply repeat_cons.
  - exact (SPC nl L).
Qed.

(* ---- the levels of a page ---- *)
Definition lmean (f : bool) (ls : list (option nat)) : meaning := match f, existsb is_empty ls with true, true => NullableAndEmptyableList | true, false => NullableList | false, true => EmptyableList | false, false => AllValidList end.
Definition null_at (d : nat) (f : bool) (ls : list (option nat)) : nat := if f then d else 0.
Definition empty_at (d : nat) (f : bool) (ls : list (option nat)) : nat := if existsb is_empty ls then if f then d + 1 else d else 0.
Lemma record_list : forall c f ls, c_off c = None -> c_mult c = 1 -> c_rep c = repeat 0 (total ls) -> c_specials c = [] ->
  record c (layer_of f ls) = Some {| c_off := Some (starts 0 ls, fulls 0 0 ls); c_specials := specs (null_at (c_cur_def c) f ls) (empty_at (c_cur_def c) f ls) (c_cur_rep c) 0 ls; c_meaning := c_meaning c ++ [lmean f ls];
    c_rep := start_rep (c_cur_rep c) ls; c_def := c_def c; c_cur_rep := S (c_cur_rep c); c_cur_def := c_cur_def c + num_def_levels (lmean f ls); c_mult := 1; c_nulls := c_nulls c |}.
Proof.
  intros c f ls H1 H2 H3 H4. unfold layer_of. cbn [record]. unfold record_offsets. rewrite H2. cbn [Nat.eqb negb]. rewrite H1, H3, H4.
  pose proof (walk_lists ls (c_cur_rep c) 0 0 [] eq_refl) as W. cbn [app] in W.
  assert (M : forall nl el, merge_specials (length (@nil srec) + length (sp_of 0 ls)) (fulls 0 0 ls) nl el (c_cur_rep c) 0 [] (sp_of 0 ls) = Some (specs nl el (c_cur_rep c) 0 ls)) by (intros nl el; exact (merge_lists ls nl el (c_cur_rep c) (fulls 0 0 ls) 0 0 0 0 (fun i => eq_refl))).
  unfold lmean, null_at, empty_at. destruct f; cbn [is_some]; destruct (existsb is_empty ls); rewrite W; cbn [obind]; rewrite M; reflexivity.
Qed.
Lemma record_all_app : forall a b c, record_all c (a ++ b) = obind (record_all c a) (fun c' => record_all c' b).
Proof. induction a as [|l a IH]; intros b c; [reflexivity|]. cbn [app]. rewrite !record_all_cons. destruct (record c l); [|reflexivity]. cbn [obind]. apply IH. Qed.
Lemma record_flat_more : forall ks vs ls, flat_layers ks vs ls -> forall c c', c_off c = None -> (Forall (fun v => v = None) vs \/ c_def c <> []) -> record_all c ls = Some c' ->
  c_rep c' = c_rep c /\ c_cur_def c' = c_cur_def c + length (filter is_some vs) /\ (Forall (fun k => k = KItem) ks -> c_mult c' = c_mult c).
Proof.
  intros ks vs ls H. induction H as [|k v l ks vs ls H1 H IH]; intros c c' O D E.
  - unfold record_all in E. cbn in E. injection E as <-. cbn. auto.
  - rewrite record_all_cons, (record_flat k v l c H1 O) in E; [|destruct D as [D|D]; [left; now inversion D|now right]]. cbn [obind] in E.
    apply IH in E; [|reflexivity|].
    + cbn [c_rep c_cur_def c_mult] in E. destruct E as [-> [-> E3]]. split; [reflexivity|]. split; [destruct v; cbn; lia|]. intros F. inversion F; subst. rewrite E3 by assumption. reflexivity.
    + cbn [c_def]. destruct D as [D|D]; [left; now inversion D|right]. destruct v as [w|]; [|exact D]. intro Q. apply (f_equal (@length nat)) in Q. rewrite mark_length in Q. destruct (c_def c); [congruence|discriminate].
Qed.
Lemma record_above : forall ls c, Forall (fun l => exists n, l = LValidity None n) ls ->
  record_all c ls = Some {| c_off := c_off c; c_specials := c_specials c; c_meaning := c_meaning c ++ repeat AllValidItem (length ls); c_rep := c_rep c; c_def := c_def c; c_cur_rep := c_cur_rep c; c_cur_def := c_cur_def c; c_mult := c_mult c; c_nulls := c_nulls c |}.
Proof.
  intros ls c F. revert c. induction F as [|l ls [n ->] F IH]; intros c; [unfold record_all; cbn; rewrite app_nil_r; destruct c; reflexivity|]. rewrite record_all_cons. cbn [record record_validity obind]. rewrite IH. cbn. rewrite Nat.mul_1_r, <- app_assoc. reflexivity.
Qed.
Lemma sequence_app : forall A (a b : list (option A)) x y, sequence_opt a = Some x -> sequence_opt b = Some y -> sequence_opt (a ++ b) = Some (x ++ y).
Proof.
  induction a as [|[u|] a IH]; intros b x y E1 E2; cbn in *; [injection E1 as <-; exact E2| |discriminate]. destruct (sequence_opt a) as [z|] eqn:Q; [|discriminate]. injection E1 as <-. rewrite (IH b z y eq_refl E2). reflexivity.
Qed.
(* what the builder of an array has *)
Definition la_flag (x : larray) : bool := is_some (la_valid x).
Lemma build_l_spec : forall a b x bd, larray_ok a b x -> 0 < b -> build_l x = Some bd -> exists b', build (la_below x) = Some b' /\
  b_layers bd = repeat (LValidity None (length (la_offsets x) - 1)) a ++ layer_of (la_flag x) (la_lists x) :: b_layers b' /\ b_len bd = Some (items (la_below x)) /\ items (la_below x) = total (la_lists x).
Proof.
  intros a b x bd [H1 [H2 [[A1 [[b' A2] A3]] _]]] P B. exists b'. split; [exact A2|]. unfold build_l in B.
  set (rs := repeat (IItem None (length (la_offsets x) - 1)) (la_above x)) in B.
  destruct (fold_left (fun b i => obind b (add_input i)) rs (Some new_builder)) as [b1|] eqn:E1; [|cbn [obind] in B; rewrite fold_none in B; discriminate].
  destruct (build_from rs new_builder b1 E1) as [L1 _]. cbn [obind] in B. destruct (add_offsets (la_offsets x) (la_valid x) b1) as [b2|] eqn:E2; [|rewrite fold_none in B; discriminate].
  apply add_offsets_eq in E2 as [E2 _]; [|exact H2]. destruct (build_from _ b2 bd B) as [L2 [_ [L3 L4]]]. rewrite E2 in L2, L4. unfold push in L2, L4. cbn [b_layers b_len] in L2, L4.
  destruct (build_spec _ b' A2) as [L5 _]. assert (N : la_below x <> []) by (intro Q; rewrite Q in A3; destruct b; [lia|discriminate]). split; [|split].
  - rewrite L2, L1, L5. cbn [new_builder b_layers app]. rewrite <- app_assoc. cbn [app]. f_equal. unfold rs. rewrite H1. clear. induction a as [|a IH]; [reflexivity|]. cbn. rewrite IH. reflexivity.
  - apply L3. exact N.
  - destruct (linked_out _ _ L4 A1) as [Q _]. fold (la_lists x) in Q. destruct (la_below x) as [|i t] eqn:Z; [congruence|]. rewrite Q, <- Z. assert (PR : prod (map in_kind (la_below x)) = 1); [|lia].
    assert (K : map in_kind (la_below x) = rev (repeat KItem b)) by (rewrite <- A3, <- Z; unfold kinds; rewrite rev_involutive; reflexivity). rewrite K.
    assert (RR : forall n, Forall (fun k => k = KItem) (rev (repeat KItem n))) by (intros n; apply Forall_rev; apply Forall_forall; intros k J; exact (repeat_spec _ _ _ J)).
    clear -RR. generalize (RR b). generalize (rev (repeat KItem b)). intros l F. induction F as [|k l -> F IH]; [reflexivity|exact IH].
Qed.
Definition list_levels (vs : list (option (list bool))) (f : bool) (ls : list (option nat)) (a : nat) (l : levels) : Prop :=
  let d := S (length (filter is_some vs)) in
  let nl := null_at d f ls in let el := empty_at d f ls in
  r_rep l = Some (out_rep 1 ls) /\ r_meaning l = map mean vs ++ lmean f ls :: repeat AllValidItem a /\
  r_def l = if existsb is_some vs || negb (forallb (fun x => 0 <? size x) ls) then Some (out_def nl el ls (map (level 1 (combine (repeat 1 (length vs)) vs)) (seq 0 (total ls)))) else None.
Lemma mults_items : forall b, mults 1 (repeat KItem b) = repeat 1 b.
Proof. induction b as [|b IH]; [reflexivity|]. cbn. rewrite IH. reflexivity. Qed.
Lemma start_rep_length : forall ls r, length (start_rep r ls) = total ls.
Proof. induction ls as [|[[|k]|] t IH]; intros r; [reflexivity| | |]; unfold start_rep, total in *; cbn [flat_map map sumn size app]; [apply IH| |apply IH]. cbn [length]. rewrite app_length, IH, repeat_length. lia. Qed.
Lemma no_specials : forall ls nl el r idx, (forallb (fun x => 0 <? size x) ls = true -> specs nl el r idx ls = [] /\ out_rep r ls = start_rep r ls /\ forall ds, length ds = total ls -> out_def nl el ls ds = ds) /\ (forallb (fun x => 0 <? size x) ls = false -> specs nl el r idx ls <> []).
Proof.
  induction ls as [|[[|k]|] t IH]; intros nl el r idx; cbn [forallb size]; split; try discriminate; intros H.
  - repeat split; auto. intros ds L. destruct ds; [reflexivity|discriminate].
  - cbn in H. destruct (proj1 (IH nl el r (idx + S k)) H) as [I1 [I2 I3]]. unfold out_rep, start_rep in *. cbn [specs flat_map out_def]. split; [exact I1|]. split; [rewrite I2; reflexivity|]. intros ds L. unfold total in L. cbn [map sumn size] in L. rewrite I3 by (rewrite skipn_length; unfold total; lia). apply firstn_skipn.
  - cbn in H. exact (proj2 (IH nl el r (idx + S k)) H).
Qed.
Theorem write_lists_levels : forall a b p, p <> [] -> 0 < b -> Forall (larray_ok a b) p ->
  (0 < total (flat_map la_lists p) \/ Forall (fun v => v = None) (page_valids (repeat KItem b) (map la_below p))) ->
  exists l, write_lists p = Some l /\ list_levels (page_valids (repeat KItem b) (map la_below p)) (existsb la_flag p) (flat_map la_lists p) a l /\ page_items (map la_below p) = total (flat_map la_lists p).
Proof.
  intros a b p NP B F T. set (ks := repeat KItem b) in *. set (ls := flat_map la_lists p) in *. set (f := existsb la_flag p).
  assert (BD : exists bs bs', sequence_opt (map build_l p) = Some bs /\ sequence_opt (map build (map la_below p)) = Some bs' /\ Forall2 (fun x bd => build_l x = Some bd) p bs /\
    Forall2 (fun x (q : builder * builder) => b_layers (fst q) = repeat (LValidity None (length (la_offsets x) - 1)) a ++ layer_of (la_flag x) (la_lists x) :: b_layers (snd q) /\ b_len (fst q) = Some (items (la_below x)) /\ length (b_layers (snd q)) = b) p (combine bs bs') /\ length bs = length p /\ length bs' = length p /\
    page_items (map la_below p) = total ls).
  { unfold ls. clear T NP ls f. induction F as [|x p X F IH]; [exists [], []; repeat split; constructor|]. destruct IH as [bs [bs' [I1 [I2 [I3 [I4 [I5 [I6 I7]]]]]]]]. pose proof X as [X1 [X2 [X3 [bd X4]]]].
    destruct (build_l_spec a b x bd X B X4) as [b' [S1 [S2 [S3 S4]]]]. exists (bd :: bs), (b' :: bs'). cbn [map sequence_opt]. rewrite X4, I1, S1, I2. split; [reflexivity|]. split; [reflexivity|]. split; [constructor; auto|]. split; [|cbn [length]; split; [congruence|split; [congruence|]]].
    - cbn [combine]. constructor; [|exact I4]. cbn [fst snd]. split; [exact S2|]. split; [exact S3|]. destruct (build_spec _ _ S1) as [-> _]. rewrite map_length. destruct X3 as [_ [_ K]]. apply (f_equal (@length kind)) in K. unfold kinds in K. rewrite rev_length, map_length, repeat_length in K. exact K.
    - cbn [flat_map]. rewrite total_app. unfold page_items in *. cbn [map sumn]. rewrite I7, S4. reflexivity. }
  destruct BD as [bs [bs' [S1 [S2 [R1 [R2 [LB [LB' PI]]]]]]]]. unfold write_lists. rewrite S1. cbn [obind].
  assert (FB : Forall (array_ok ks) (map la_below p)) by (apply Forall_map; eapply Forall_impl; [|exact F]; intros x X; apply X).
  assert (NK : ks <> []) by (unfold ks; destruct b; [lia|discriminate]). assert (NB : map la_below p <> []) by (destruct p; [congruence|discriminate]). assert (LK : length ks = b) by (unfold ks; apply repeat_length).
  assert (NE : forallb b_empty bs = false).
  { clear LK. destruct p as [|x p]; [congruence|]. destruct bs as [|b0 bs0]; [discriminate|]. destruct bs' as [|b0' bs0']; [discriminate|]. cbn [combine] in R2. inversion R2 as [|? ? ? ? [Q _] _]; subst. cbn [fst] in Q. cbn [forallb]. unfold b_empty at 1. rewrite Q, forallb_app. cbn [forallb layer_of]. rewrite andb_false_r. reflexivity. }
  assert (OFS : existsb b_offsets bs = true).
  { clear LK. destruct p as [|x p]; [congruence|]. destruct bs as [|b0 bs0]; [discriminate|]. destruct bs' as [|b0' bs0']; [discriminate|]. cbn [combine] in R2. inversion R2 as [|? ? ? ? [Q _] _]; subst. cbn [fst] in Q. cbn [existsb]. unfold b_offsets at 1. rewrite Q, existsb_app. cbn [existsb layer_of]. rewrite orb_true_r. reflexivity. }
  assert (NUL : existsb b_nulls bs = existsb b_nulls bs').
  { clear -R2 LB LB'. revert bs bs' LB LB' R2. induction p as [|x p IH]; intros [|b0 bs] [|b0' bs'] L1 L2 R; try discriminate; [reflexivity|]. cbn [combine] in R. inversion R as [|? ? ? ? [Q _] R']; subst. cbn [fst snd] in Q. cbn [existsb]. rewrite (IH bs bs') by (auto; cbn in *; lia). f_equal. unfold b_nulls. rewrite Q, existsb_app. cbn [existsb layer_of].
    replace (existsb _ (repeat (LValidity None (length (la_offsets x) - 1)) a)) with false; [reflexivity|]. clear. induction a as [|a IH]; [reflexivity|exact IH]. }
  assert (SL : sequence_opt (map b_len bs) = Some (map items (map la_below p))).
  { clear -R2 LB LB'. revert bs bs' LB LB' R2. induction p as [|x p IH]; intros [|b0 bs] [|b0' bs'] L1 L2 R; try discriminate; [reflexivity|]. cbn [combine] in R. inversion R as [|? ? ? ? [_ [Q _]] R']; subst. cbn [fst snd] in Q. cbn [map sequence_opt]. rewrite Q, (IH bs bs') by (auto; cbn in *; lia). reflexivity. }
  assert (L0 : forall b0 t, bs = b0 :: t -> length (b_layers b0) = a + S b).
  { clear LK. intros b0 t ->. destruct p as [|x p]; [discriminate|]. destruct bs' as [|b0' bs0']; [discriminate|]. cbn [combine] in R2. inversion R2 as [|? ? ? ? [Q [_ Q2]] _]; subst. cbn [fst snd] in Q |- *. rewrite Q, app_length. cbn [length]. rewrite repeat_length. reflexivity. }
  (* the layers *)
  set (L := fun i => omap concat_layers (sequence_opt (map (fun b => nth_error (b_layers b) i) bs))).
  assert (G : exists up lo, sequence_opt (map L (seq 0 (a + S b))) = Some (up ++ layer_of f ls :: lo) /\ Forall (fun l => exists n, l = LValidity None n) up /\ length up = a /\ flat_layers ks (page_valids ks (map la_below p)) (rev lo)).
  { destruct (page_layers ks (map la_below p) bs' FB NB NK S2) as [lo [E1 E2]]. rewrite LK in E1.
    assert (UP : exists up, sequence_opt (map L (seq 0 a)) = Some up /\ Forall (fun l => exists n, l = LValidity None n) up /\ length up = a).
    { exists (map (fun _ => concat_layers (map (fun x => LValidity None (length (la_offsets x) - 1)) p)) (seq 0 a)). split; [|split; [|now rewrite map_length, seq_length]].
      - apply sequence_map_some. intros i J. apply in_seq in J. unfold L. assert (Q : sequence_opt (map (fun b => nth_error (b_layers b) i) bs) = Some (map (fun x => LValidity None (length (la_offsets x) - 1)) p)); [|rewrite Q; reflexivity].
        clear -R2 LB LB' J. revert bs bs' LB LB' R2. induction p as [|x p IH]; intros [|b0 bs] [|b0' bs'] L1 L2 R; try discriminate; [reflexivity|]. cbn [combine] in R. inversion R as [|? ? ? ? [Q _] R']; subst. cbn [fst snd] in Q. cbn [map sequence_opt]. rewrite Q, nth_error_app1 by (rewrite repeat_length; lia). rewrite nth_error_repeat by lia. rewrite (IH bs bs') by (auto; cbn in *; lia). reflexivity.
      - apply Forall_map. apply Forall_forall. intros i _. unfold concat_layers. assert (X1 : existsb (fun l => is_some (l_valid l)) (map (fun x => LValidity None (length (la_offsets x) - 1)) p) = false) by (clear; induction p as [|x p IH]; [reflexivity|exact IH]). rewrite X1.
        assert (X2 : exists n, last (map (fun x => LValidity None (length (la_offsets x) - 1)) p) (LValidity None 0) = LValidity None n) by (clear; induction p as [|x p IH]; [eexists; reflexivity|]; destruct p as [|y p]; [eexists; reflexivity|exact IH]). destruct X2 as [n ->]. eexists. reflexivity. }
    destruct UP as [up [U1 [U2 U3]]]. exists up, lo. split; [|auto]. rewrite seq_app, map_app. cbn [Nat.add]. apply sequence_app; [exact U1|]. change (a + S b) with (a + S b). cbn [seq map sequence_opt].
    assert (QL : L a = Some (layer_of f ls)).
    { unfold L. assert (Q : sequence_opt (map (fun b => nth_error (b_layers b) a) bs) = Some (map (fun x => layer_of (fst x) (snd x)) (map (fun x => (la_flag x, la_lists x)) p))).
      { clear -R2 LB LB'. revert bs bs' LB LB' R2. induction p as [|x p IH]; intros [|b0 bs] [|b0' bs'] L1 L2 R; try discriminate; [reflexivity|]. cbn [combine] in R. inversion R as [|? ? ? ? [Q _] R']; subst. cbn [fst snd] in Q. cbn [map sequence_opt]. rewrite Q, nth_error_app2 by (rewrite repeat_length; lia). rewrite repeat_length, Nat.sub_diag. cbn [nth_error]. rewrite (IH bs bs') by (auto; cbn in *; lia). reflexivity. }
      rewrite Q. cbn [omap]. rewrite concat_lists; [|destruct p; [congruence|discriminate]|].
      - f_equal. f_equal; [unfold f; clear; induction p as [|x p IH]; [reflexivity|cbn; rewrite IH; reflexivity]|unfold ls; clear; induction p as [|x p IH]; [reflexivity|cbn; rewrite IH; reflexivity]].
      - apply Forall_map. apply Forall_forall. intros x _. unfold valid_or, la_flag, la_lists. cbn [fst snd]. destruct (la_valid x); [discriminate|]. intros _. apply lists_all. }
    rewrite QL. rewrite (seq_from (S a) b), map_map. rewrite (map_ext_in (fun x => L (S a + x)) (fun i => omap concat_layers (sequence_opt (map (fun b => nth_error (b_layers b) i) bs')))); [rewrite E1; reflexivity|].
    intros i _. unfold L. f_equal. f_equal. clear -R2 LB LB'. revert bs bs' LB LB' R2. induction p as [|x p IH]; intros [|b0 bs] [|b0' bs'] L1 L2 R; try discriminate; [reflexivity|]. cbn [combine] in R. inversion R as [|? ? ? ? [Q _] R']; subst. cbn [fst snd] in Q. cbn [map]. rewrite (IH bs bs') by (auto; cbn in *; lia). f_equal. rewrite Q, nth_error_app2 by (rewrite repeat_length; lia). rewrite repeat_length. replace (S a + i - a) with (S i) by lia. reflexivity. }
  destruct G as [up [lo [G1 [G2 [G3 G4]]]]].
  unfold L in G1. clear L. unfold serialize. destruct bs as [|b0 bt] eqn:QB; [destruct p; [congruence|discriminate]|]. rewrite <- QB in *. rewrite NE, SL. cbn [obind]. rewrite (L0 b0 bt QB). rewrite G1. cbn [obind].
  rewrite rev_app_distr. cbn [rev]. rewrite <- !app_assoc. cbn [app]. rewrite record_all_app, OFS, NUL.
  set (vs := page_valids ks (map la_below p)) in *. set (c0 := new_ctx (sumn (map items (map la_below p))) (existsb b_nulls bs') true).
  assert (PI' : sumn (map items (map la_below p)) = total ls) by exact PI.
  assert (D : Forall (fun v => v = None) vs \/ (c_def c0 = repeat 0 (total ls) /\ 0 < total ls)).
  { destruct (existsb b_nulls bs') eqn:X; [|left; apply (no_nulls ks _ bs' FB NK S2 X)]. destruct T as [T|T]; [right|left; exact T]. split; [cbn; rewrite PI'; reflexivity|exact T]. }
  assert (D' : Forall (fun v => v = None) vs \/ c_def c0 <> []) by (destruct D as [D|[D P0]]; [left; exact D|right; rewrite D; destruct (total ls); [lia|discriminate]]).
  destruct (record_all_flat ks vs (rev lo) G4 c0) as [c [E [C1 [C2 [C3 [C4 [C5 [C6 C7]]]]]]]]; [reflexivity|cbn; lia|exact D'|cbn; lia|].
  destruct (record_flat_more ks vs (rev lo) G4 c0 c eq_refl D' E) as [C8 [C9 C10]]. rewrite E. cbn [obind]. rewrite record_all_cons, record_list.
  2: exact C1. 2:{ rewrite C10; [reflexivity|]. unfold ks. apply Forall_forall. intros k J. exact (repeat_spec _ _ _ J). } 2:{ rewrite C8. cbn [c0 new_ctx c_rep]. rewrite PI'. reflexivity. } 2: exact C2.
  cbn [obind]. rewrite record_above by (apply Forall_rev; exact G2). cbn [obind c_specials c_cur_rep c_rep c_nulls c_def c_meaning]. rewrite C4, C9, C5, C3. cbn [c0 new_ctx c_cur_rep c_cur_def c_nulls c_meaning orb app Nat.ltb Nat.leb Nat.add]. fold c0.
  rewrite rev_length, G3.
  set (d := S (length (filter is_some vs))). set (nl := null_at d f ls). set (el := empty_at d f ls).
  set (G := level 1 (combine (repeat 1 (length vs)) vs)).
  assert (LV : length vs = b) by (unfold vs, page_valids, joined; rewrite map_length, seq_length; exact LK).
  assert (GD : existsb is_some vs = true -> c_def c = map G (seq 0 (total ls))).
  { intros X. destruct D as [D|[D P0]]; [rewrite (none_exists _ D) in X; discriminate|]. assert (LD : length (c_def c) = total ls) by (rewrite C6, D; apply repeat_length). rewrite <- (seq_map_nth nat 0 (c_def c)), LD. apply map_ext_in. intros i J. apply in_seq in J.
    rewrite C7 by (rewrite D, repeat_length; lia). cbn [c_cur_def c_mult c0 new_ctx]. fold c0. rewrite D. cbn zeta. unfold ks. rewrite mults_items, <- LV. fold G. destruct (Nat.eqb_spec (G i) 0) as [Q|Q]; [|reflexivity]. rewrite Q. apply nth_repeat. }
  assert (GZ : existsb is_some vs = false -> map G (seq 0 (total ls)) = repeat 0 (total ls)).
  { intros X. assert (Z : length (filter is_some vs) = 0) by (clear -X; induction vs as [|v vs IH]; [reflexivity|]; cbn in *; apply orb_false_iff in X as [-> X]; auto). assert (Z2 : forall i, G i = 0).
    { intros i. pose proof (level_bound (combine (repeat 1 (length vs)) vs) 1 i) as LB2. rewrite (nullable_combine (repeat 1 (length vs)) vs) in LB2 by (now rewrite repeat_length). unfold G. lia. }
    rewrite (map_ext _ (fun _ => 0)) by exact Z2. clear. generalize 0 at 2. induction (total ls) as [|n IH]; intros s; [reflexivity|]. cbn. rewrite IH. reflexivity. }
  unfold list_levels. cbn zeta. fold d nl el G.
  destruct (no_specials ls nl el 1 0) as [NS1 NS2]. destruct (forallb (fun x => 0 <? size x) ls) eqn:AP.
  - destruct (NS1 eq_refl) as [N1 [N2 N3]]. rewrite N1. cbn [collapse_specials]. eexists. split; [reflexivity|]. cbn [r_rep r_meaning r_def negb]. rewrite orb_false_r. split; [|exact PI]. split; [now rewrite N2|]. split; [rewrite <- app_assoc; reflexivity|].
    destruct (existsb is_some vs); [|reflexivity]. rewrite GD by reflexivity. rewrite N3 by (now rewrite map_length, seq_length). reflexivity.
  - specialize (NS2 eq_refl). unfold collapse_specials. destruct (specs nl el 1 0 ls) as [|s0 st] eqn:QS; [congruence|]. rewrite <- QS. cbn [obind]. rewrite <- (out_rep_length ls 1 nl el 0).
    rewrite (collapse_lists ls nl el 1 0 _ (map G (seq 0 (total ls)))); [|now rewrite map_length, seq_length| |discriminate].
    2:{ destruct (existsb is_some vs); [left; rewrite GD by reflexivity; reflexivity|right]. split; [reflexivity|]. rewrite map_length, seq_length. apply GZ. reflexivity. }
    cbn [omap rev app]. eexists. split; [reflexivity|]. cbn [r_rep r_meaning r_def negb]. rewrite orb_true_r. split; [|exact PI]. split; [reflexivity|]. split; [rewrite <- app_assoc; reflexivity|reflexivity].
Qed.
