(* Nulls of nested structs and fixed size lists survive definition levels (C105, C106). *)
From Coq Require Import List Arith Bool Lia.
From Verif Require Import Lib RepDefModel.
Import ListNotations.
Local Open Scope nat_scope.

(* ---- specification ---- *)
(* the layers of an array, innermost first: how many innermost items a value of the layer has, and its validity *)
Definition chain := list (nat * option (list bool)).
Definition layer_valid (m : nat) (v : option (list bool)) (i : nat) : bool := match v with None => true | Some v => nth (i / m) v true end.
(* the outermost layer that is null above item [i]: what is inside a null does not matter *)
Fixpoint outermost_null (ch : chain) (i : nat) : option nat :=
  match ch with
  | [] => None
  | (m, v) :: t => match outermost_null t i with Some k => Some (S k) | None => if layer_valid m v i then None else Some 0 end
  end.
Fixpoint mults (m : nat) (ks : list kind) : list nat :=
  match ks with [] => [] | KFsl d :: t => (m * d) :: mults (m * d) t | _ :: t => m :: mults m t end.
Definition nulls (ks : list kind) (vs : list (option (list bool))) (n : nat) : list (option nat) := map (outermost_null (combine (mults 1 ks) vs)) (seq 0 n).
(* arrays handed to the encoder, outermost first: structs and items, fixed size lists *)
Inductive input := IItem (v : option (list bool)) (n : nat) | IFsl (v : option (list bool)) (dim n : nat).
Definition in_kind (i : input) : kind := match i with IItem _ _ => KItem | IFsl _ d _ => KFsl d end.
Definition in_valid (i : input) : option (list bool) := match i with IItem v _ => v | IFsl v _ _ => v end.
Definition in_len (i : input) : nat := match i with IItem _ n => n | IFsl _ _ n => n end.
Definition input_ok (i : input) : Prop := (match in_valid i with Some v => length v = in_len i | None => True end) /\ (match i with IFsl _ d _ => 0 < d | _ => True end).
Definition add_input (i : input) (b : builder) : option builder := match i with IItem v n => add_validity v n b | IFsl v d n => add_fsl v d n b end.
Definition build (is : list input) : option builder := fold_left (fun b i => obind b (add_input i)) is (Some new_builder).
(* the number of innermost items *)
Definition items (is : list input) : nat := match last is (IItem None 0) with IItem _ n => n | IFsl _ d n => n * d end.
Definition kinds (is : list input) : list kind := rev (map in_kind is).
Definition validities (is : list input) : list (option (list bool)) := rev (map in_valid is).

(* ---- builders ---- *)
Definition in_layer (i : input) : layer := match i with IItem v n => LValidity v n | IFsl v d n => LFsl v d n end.
Definition in_out (i : input) : nat := match i with IItem _ n => n | IFsl _ d n => n * d end.
(* outermost first *)
Fixpoint linked (n : nat) (is : list input) : Prop := match is with [] => True | i :: t => in_len i = n /\ linked (in_out i) t end.
Lemma fold_none : forall A B (f : A -> B -> option B) l, fold_left (fun b i => obind b (f i)) l None = None.
Proof. induction l; cbn; auto. Qed.
Lemma build_from : forall is b0 b, fold_left (fun b i => obind b (add_input i)) is (Some b0) = Some b ->
  b_layers b = b_layers b0 ++ map in_layer is /\ (is = [] -> b = b0) /\ (is <> [] -> b_len b = Some (items is)) /\ match b_len b0 with Some k => linked k is | None => match is with [] => True | i :: t => linked (in_out i) t end end.
Proof.
  induction is as [|i t IH]; intros b0 b H.
  - cbn in H. injection H as <-. rewrite app_nil_r. split; [reflexivity|]. split; [reflexivity|]. split; [congruence|]. destruct (b_len b0); exact Logic.I.
  - cbn [fold_left obind] in H. destruct (add_input i b0) as [b1|] eqn:E; [|rewrite fold_none in H; discriminate].
    assert (E1 : b_layers b1 = b_layers b0 ++ [in_layer i] /\ b_len b1 = Some (in_out i) /\ match b_len b0 with Some k => in_len i = k | None => True end).
    { unfold add_input, add_validity, add_fsl, len_is in E. destruct i; destruct (b_len b0) as [k|]; try (destruct (Nat.eqb_spec k n); [|discriminate]); injection E as <-; cbn; auto. }
    destruct E1 as [L1 [L2 L3]]. destruct (IH b1 b H) as [I1 [I2 [I3 I4]]]. rewrite L2 in I4. split; [|split; [congruence|split]].
    + rewrite I1, L1, <- app_assoc. reflexivity.
    + intros _. destruct t as [|j t']; [rewrite (I2 eq_refl), L2; reflexivity|]. rewrite I3 by congruence. reflexivity.
    + destruct (b_len b0) as [k|]; [split; [exact L3|exact I4]|exact I4].
Qed.
Lemma build_spec : forall is b, build is = Some b -> b_layers b = map in_layer is /\ (is <> [] -> b_len b = Some (items is)) /\ match is with [] => True | i :: t => linked (in_out i) t end.
Proof. intros is b H. destruct (build_from is new_builder b H) as [H1 [_ [H3 H4]]]. split; [exact H1|]. split; [exact H3|exact H4]. Qed.

(* innermost first: every layer divides the items *)
Fixpoint divided (m n : nat) (ls : list input) : Prop :=
  match ls with
  | [] => True
  | IItem v k :: t => k * m = n /\ (match v with Some v => length v = k | None => True end) /\ divided m n t
  | IFsl v d k :: t => 0 < d /\ k * (m * d) = n /\ (match v with Some v => length v = k | None => True end) /\ divided (m * d) n t
  end.
Fixpoint prod (ks : list kind) : nat := match ks with [] => 1 | KFsl d :: t => d * prod t | _ :: t => prod t end.
Lemma divided_app : forall a b m n, divided m n (a ++ b) <-> divided m n a /\ divided (m * prod (map in_kind a)) n b.
Proof.
  induction a as [|[v k|v d k] a IH]; intros b m n; cbn [app divided map in_kind prod].
  - rewrite Nat.mul_1_r. tauto.
  - rewrite IH. tauto.
  - rewrite IH, (Nat.mul_assoc m d). tauto.
Qed.
Lemma linked_out : forall t k, linked k t -> Forall input_ok t -> match t with [] => k | _ => items t end = k * prod (map in_kind t) /\ divided 1 (k * prod (map in_kind t)) (rev t).
Proof.
  induction t as [|i t IH]; intros k L F; [cbn; split; [lia|exact Logic.I]|]. destruct L as [L1 L2]. inversion F as [|? ? F1 F2]; subst. destruct (IH _ L2 F2) as [I1 I2]. cbn [rev map].
  assert (P : prod (map in_kind (rev t)) = prod (map in_kind t)).
  { clear. induction t as [|i t IH]; [reflexivity|]. cbn [rev map]. rewrite map_app. assert (A : forall a b, prod (a ++ b) = prod a * prod b) by (clear; induction a as [|[|d|] a IH]; intros b; cbn [app prod]; rewrite ?IH; lia).
    rewrite A, IH. cbn [map prod]. destruct (in_kind i); cbn [prod]; lia. }
  assert (E : in_len i * prod (in_kind i :: map in_kind t) = in_out i * prod (map in_kind t)) by (destruct i; cbn; lia).
  rewrite E. split.
  - destruct t as [|j t']; [destruct i; cbn in *; lia|exact I1].
  - apply divided_app. split; [exact I2|]. rewrite P, Nat.mul_1_l. destruct F1 as [F1 F1']. destruct i as [v n|v d n]; cbn in *; intuition lia.
Qed.
Lemma build_divided : forall is b, build is = Some b -> Forall input_ok is -> is <> [] -> divided 1 (items is) (rev is).
Proof.
  intros is b H F N. destruct (build_spec is b H) as [_ [_ L]]. destruct is as [|i t]; [congruence|].
  assert (L' : linked (in_len i) (i :: t)) by (split; auto). destruct (linked_out (i :: t) _ L' F) as [I1 I2]. rewrite <- I1 in I2. exact I2.
Qed.

(* ---- concatenating layers ---- *)
Definition bits_of (k : nat) (v : option (list bool)) : list bool := match v with Some v => v | None => repeat true k end.
Definition join (ps : list (nat * option (list bool))) : option (list bool) :=
  if existsb (fun p => is_some (snd p)) ps then Some (flat_map (fun p => bits_of (fst p) (snd p)) ps) else None.
Definition sized (p : nat * option (list bool)) : Prop := match snd p with Some v => length v = fst p | None => True end.
Lemma bits_of_length : forall p, sized p -> length (bits_of (fst p) (snd p)) = fst p.
Proof. intros [k [v|]] H; cbn in *; [exact H|apply repeat_length]. Qed.
Lemma nth_bits : forall k v i m, layer_valid m v i = nth (i / m) (bits_of k v) true \/ k <= i / m.
Proof.
  intros k [v|] i m; [now left|]. cbn. destruct (le_lt_dec k (i / m)) as [L|L]; [now right|left]. symmetry. generalize dependent (i / m). clear. intros j. revert j. induction k as [|k IH]; intros [|j] L; cbn; auto; try lia. apply IH. lia.
Qed.
Lemma nth_repeat_true : forall k j, nth j (repeat true k) true = true.
Proof. induction k as [|k IH]; intros [|j]; cbn; auto. Qed.
Lemma layer_valid_bits : forall k v i m, layer_valid m v i = nth (i / m) (bits_of k v) true.
Proof. intros k [v|] i m; [reflexivity|]. cbn. now rewrite nth_repeat_true. Qed.
Lemma join_bits : forall ps i m, layer_valid m (join ps) i = nth (i / m) (flat_map (fun p => bits_of (fst p) (snd p)) ps) true.
Proof.
  intros ps i m. unfold join. destruct (existsb _ ps) eqn:E; [reflexivity|]. cbn. symmetry. generalize (i / m). intros j. revert j. induction ps as [|[k v] t IH]; intros j; [destruct j; reflexivity|].
  cbn [existsb snd] in E. apply orb_false_iff in E. destruct E as [E1 E2]. destruct v; [discriminate|]. cbn [flat_map fst snd bits_of].
  destruct (le_lt_dec k j) as [L|L]; [rewrite app_nth2; rewrite repeat_length; auto; apply IH; auto|rewrite app_nth1 by (now rewrite repeat_length); apply nth_repeat_true].
Qed.
Lemma join_at : forall m pre k v post i, 0 < m -> Forall sized pre -> sized (k, v) -> i < k * m ->
  layer_valid m (join (pre ++ (k, v) :: post)) (sumn (map fst pre) * m + i) = layer_valid m v i.
Proof.
  intros m pre k v post i M F S L. rewrite join_bits, flat_map_app. cbn [flat_map fst snd]. rewrite (layer_valid_bits k).
  rewrite Nat.div_add_l by lia.
  assert (Lp : length (flat_map (fun p : nat * option (list bool) => bits_of (fst p) (snd p)) pre) = sumn (map fst pre)).
  { clear -F. induction F as [|p t H F IH]; [reflexivity|]. cbn. rewrite app_length, IH, bits_of_length by exact H. reflexivity. }
  rewrite app_nth2; rewrite Lp; [|apply Nat.le_add_r]. rewrite (Nat.add_comm (sumn (map fst pre))), Nat.add_sub.
  apply app_nth1. pose proof (bits_of_length (k, v) S) as Q. cbn [fst snd] in Q. rewrite Q. apply Nat.div_lt_upper_bound; lia.
Qed.
Lemma join_length : forall ps v, Forall sized ps -> join ps = Some v -> length v = sumn (map fst ps).
Proof.
  intros ps v F J. unfold join in J. destruct (existsb _ ps); [|discriminate]. injection J as <-. induction F as [|p t H F IH]; [reflexivity|]. cbn. rewrite app_length, IH, bits_of_length by exact H. reflexivity.
Qed.

(* ---- the same nulls ---- *)
Lemma outermost_ext : forall (a b : chain) i j, Forall2 (fun x y => layer_valid (fst x) (snd x) i = layer_valid (fst y) (snd y) j) a b -> outermost_null a i = outermost_null b j.
Proof. intros a b i j H. induction H as [|[m v] [m' v'] a b H1 H IH]; [reflexivity|]. cbn in *. rewrite IH, H1. reflexivity. Qed.

(* the definition level of an item, for layers whose levels start with [d] *)
Fixpoint level (d : nat) (ch : chain) (i : nat) : nat :=
  match ch with
  | [] => 0
  | (m, None) :: t => level d t i
  | (m, Some v) :: t => let x := level (S d) t i in if x =? 0 then if nth (i / m) v true then 0 else d else x
  end.
Definition nullable (ch : chain) : nat := length (filter (fun x => is_some (snd x)) ch).
Lemma level_bound : forall ch d i, level d ch i = 0 \/ d <= level d ch i < d + nullable ch.
Proof.
  induction ch as [|[m [v|]] t IH]; intros d i; cbn [level]; [now left| |apply IH]. unfold nullable. cbn [filter snd is_some length]. fold (nullable t).
  destruct (IH (S d) i) as [E|E]; [rewrite E; cbn; destruct (nth (i / m) v true); [now left|right; lia]|]. rewrite (proj2 (Nat.eqb_neq _ _)) by lia. right. lia.
Qed.
Lemma level_zero : forall ch d i, 0 < d -> level d ch i = 0 <-> outermost_null ch i = None.
Proof.
  induction ch as [|[m [v|]] t IH]; intros d i D; [cbn; tauto| |].
  - cbn [level outermost_null layer_valid]. pose proof (IH (S d) i ltac:(lia)) as Q. destruct (Nat.eqb_spec (level (S d) t i) 0) as [E|E].
    + rewrite (proj1 Q E). destruct (nth (i / m) v true); split; auto; try discriminate; lia.
    + destruct (outermost_null t i); [split; [congruence|discriminate]|]. exfalso. apply E. now apply Q.
  - cbn [level outermost_null layer_valid]. rewrite (IH d i D). destruct (outermost_null t i); split; auto; discriminate.
Qed.

(* ---- marking the levels ---- *)
Lemma mark_length : forall l x vs, length (mark x l vs) = length l.
Proof. induction l as [|d l IH]; intros x [|v vs]; cbn; auto. Qed.
Lemma mark_nth : forall l x vs i, i < length l -> nth i (mark x l vs) 0 = if nth i vs true then nth i l 0 else x.
Proof. induction l as [|d l IH]; intros x [|v vs] [|i] H; cbn in *; try lia; auto. apply IH. lia. Qed.
Lemma nth_expand : forall m vs i, 0 < m -> nth i (flat_map (fun v => repeat v m) vs) true = nth (i / m) vs true.
Proof.
  intros m vs. induction vs as [|v vs IH]; intros i M; [destruct i; cbn; destruct (_ / m); reflexivity|]. cbn [flat_map]. destruct (le_lt_dec m i) as [L|L].
  - rewrite app_nth2; rewrite repeat_length; [|exact L]. rewrite IH by exact M. replace i with (i - m + 1 * m) at 2 by lia. rewrite Nat.div_add by lia. rewrite Nat.add_1_r. reflexivity.
  - rewrite app_nth1 by (now rewrite repeat_length). rewrite Nat.div_small by exact L. cbn. clear -L. revert i L. induction m as [|m IH]; intros [|i] L; cbn; try lia; auto. apply IH. lia.
Qed.
Definition mean (v : option (list bool)) : meaning := if is_some v then NullableItem else AllValidItem.
Definition flat_layer (k : kind) (v : option (list bool)) (l : layer) : Prop := match k with KItem => exists n, l = LValidity v n | KFsl d => 0 < d /\ exists n, l = LFsl v d n | KList => False end.
Inductive flat_layers : list kind -> list (option (list bool)) -> list layer -> Prop :=
| fl_nil : flat_layers [] [] []
| fl_cons : forall k v l ks vs ls, flat_layer k v l -> flat_layers ks vs ls -> flat_layers (k :: ks) (v :: vs) (l :: ls).
Definition kmul (k : kind) (m : nat) : nat := match k with KFsl d => m * d | _ => m end.
Lemma mults_cons : forall m k ks, mults m (k :: ks) = kmul k m :: mults (kmul k m) ks.
Proof. intros m [|d|] ks; reflexivity. Qed.
Lemma record_all_cons : forall c l ls, record_all c (l :: ls) = obind (record c l) (fun c' => record_all c' ls).
Proof. intros c l ls. unfold record_all. cbn [fold_left obind]. destruct (record c l) as [c'|]; [reflexivity|]. cbn [obind]. clear. induction ls; cbn; auto. Qed.
Lemma kmul_pos : forall k v l m, flat_layer k v l -> 0 < m -> 0 < kmul k m.
Proof. intros [|d|] v l m H M; cbn in *; auto. destruct H as [H _]. lia. Qed.
Lemma record_flat : forall k v l c, flat_layer k v l -> c_off c = None -> (v = None \/ c_def c <> []) ->
  record c l = Some {| c_off := None; c_specials := c_specials c; c_meaning := c_meaning c ++ [mean v]; c_rep := c_rep c;
                       c_def := match v with Some vs => mark (c_cur_def c) (c_def c) (flat_map (fun b => repeat b (kmul k (c_mult c))) vs) | None => c_def c end;
                       c_cur_rep := c_cur_rep c; c_cur_def := match v with Some _ => S (c_cur_def c) | None => c_cur_def c end; c_mult := kmul k (c_mult c);
                       c_nulls := match v with Some _ => true | None => c_nulls c end |}.
Proof.
  intros k v l c H O D. assert (E : exists d, record c l = record_validity c d v /\ c_mult c * d = kmul k (c_mult c)).
  { destruct k as [|d|]; cbn in H; [|destruct H as [H0 H]|destruct H]; destruct H as [n ->]; cbn; [exists 1; split; [reflexivity|lia]|exists d; auto]. }
  destruct E as [d [-> E]]. unfold record_validity. destruct v as [vs|].
  - unfold do_record_validity. cbn [c_def c_off c_mult]. destruct D as [D|D]; [discriminate|]. destruct (c_def c) as [|x t] eqn:Ed; [congruence|]. rewrite O. rewrite E. reflexivity.
  - rewrite O, E. reflexivity.
Qed.
Lemma record_all_flat : forall ks vs ls, flat_layers ks vs ls -> forall c, c_off c = None -> 0 < c_mult c -> (Forall (fun v => v = None) vs \/ c_def c <> []) -> 0 < c_cur_def c ->
  exists c', record_all c ls = Some c' /\ c_off c' = None /\ c_specials c' = c_specials c /\ c_meaning c' = c_meaning c ++ map mean vs /\ c_cur_rep c' = c_cur_rep c /\
    c_nulls c' = c_nulls c || existsb is_some vs /\ length (c_def c') = length (c_def c) /\
    forall i, i < length (c_def c) -> nth i (c_def c') 0 = let x := level (c_cur_def c) (combine (mults (c_mult c) ks) vs) i in if x =? 0 then nth i (c_def c) 0 else x.
Proof.
  intros ks vs ls H. induction H as [|k v l ks vs ls H1 H IH]; intros c O M D P.
  - exists c. cbn. rewrite app_nil_r, orb_false_r. repeat split; auto.
  - rewrite record_all_cons, (record_flat k v l c H1 O); [|destruct D as [D|D]; [left; now inversion D|now right]]. cbn [obind].
    match goal with |- exists c', record_all ?x _ = _ /\ _ => set (c1 := x) end.
    assert (L1 : length (c_def c1) = length (c_def c)) by (unfold c1; cbn [c_def]; destruct v; [apply mark_length|reflexivity]).
    destruct (IH c1) as [c' [E [E1 [E2 [E3 [E4 [E5 [E6 E7]]]]]]]].
    + reflexivity.
    + unfold c1. cbn. apply (kmul_pos k v l); auto.
    + destruct D as [D|D]; [left; now inversion D|right]. intro Q. rewrite Q in L1. destruct (c_def c); [congruence|discriminate].
    + unfold c1. cbn. destruct v; lia.
    + exists c'. split; [exact E|]. split; [exact E1|]. split; [exact E2|]. split; [rewrite E3; unfold c1; cbn [c_meaning map]; rewrite <- app_assoc; reflexivity|]. split; [exact E4|].
      split; [rewrite E5; unfold c1; cbn [c_nulls existsb]; destruct v; cbn; [now rewrite orb_true_r|reflexivity]|]. split; [congruence|].
      intros i Hi. rewrite E7 by (now rewrite L1). unfold c1. cbn [c_cur_def c_mult c_def]. rewrite mults_cons. cbn [combine level]. destruct v as [vs0|]; [|reflexivity].
      cbn zeta. destruct (Nat.eqb_spec (level (S (c_cur_def c)) (combine (mults (kmul k (c_mult c)) ks) vs) i) 0) as [Q|Q].
      * rewrite mark_nth by exact Hi. rewrite nth_expand by (apply (kmul_pos k (Some vs0) l); auto). destruct (nth (i / kmul k (c_mult c)) vs0 true); [reflexivity|]. rewrite (proj2 (Nat.eqb_neq _ _)) by lia. reflexivity.
      * rewrite (proj2 (Nat.eqb_neq _ _) Q). reflexivity.
Qed.

(* ---- joining arrays ---- *)
(* a piece of a column: its items, and for every layer, innermost first, the number of values and the validity *)
Definition piece := (nat * list (nat * option (list bool)))%type.
Definition piece_layer (j : nat) (c : piece) : nat * option (list bool) := nth j (snd c) (0, None).
Definition piece_ok (ms : list nat) (c : piece) : Prop := length (snd c) = length ms /\ forall j, j < length ms -> 0 < nth j ms 0 /\ fst (piece_layer j c) * nth j ms 0 = fst c /\ sized (piece_layer j c).
Definition joined (n : nat) (cs : list piece) : list (option (list bool)) := map (fun j => join (map (piece_layer j) cs)) (seq 0 n).
Lemma seq_from : forall n k, seq n k = map (fun i => n + i) (seq 0 k).
Proof.
  intros n k. induction n as [|n IH]; [cbn; symmetry; apply map_id|]. rewrite <- seq_shift, IH, map_map. reflexivity.
Qed.
Lemma nth_map_seq : forall A (g : nat -> A) n j d, j < n -> nth j (map g (seq 0 n)) d = g j.
Proof. intros A g n j d H. rewrite (nth_indep _ d (g 0)) by (now rewrite map_length, seq_length). rewrite map_nth, seq_nth by exact H. reflexivity. Qed.
Lemma seq_map_nth : forall A (d : A) l, map (fun j => nth j l d) (seq 0 (length l)) = l.
Proof.
  intros A d l. induction l as [|x l IH]; [reflexivity|]. cbn [length seq map nth]. f_equal. rewrite <- seq_shift, map_map. exact IH.
Qed.
Lemma combine_map_map : forall A B C (f : A -> B) (g : A -> C) l, combine (map f l) (map g l) = map (fun x => (f x, g x)) l.
Proof. induction l as [|x l IH]; cbn; [|rewrite IH]; reflexivity. Qed.
Lemma combine_seq : forall A (g : nat -> A) ms, combine ms (map g (seq 0 (length ms))) = map (fun j => (nth j ms 0, g j)) (seq 0 (length ms)).
Proof. intros A g ms. rewrite <- (seq_map_nth nat 0 ms) at 1. apply combine_map_map. Qed.
Lemma Forall2_map_map : forall A B C (R : B -> C -> Prop) (f : A -> B) (g : A -> C) l, (forall x, In x l -> R (f x) (g x)) -> Forall2 R (map f l) (map g l).
Proof. intros A B C R f g l. induction l as [|x l IH]; intros H; constructor; [apply H; left; reflexivity|apply IH; intros y J; apply H; right; exact J]. Qed.
Lemma joined_nulls : forall ms cs, Forall (piece_ok ms) cs ->
  map (outermost_null (combine ms (joined (length ms) cs))) (seq 0 (sumn (map fst cs))) = flat_map (fun c => map (outermost_null (combine ms (map snd (snd c)))) (seq 0 (fst c))) cs.
Proof.
  intros ms cs H. assert (G : forall post pre, pre ++ post = cs -> map (outermost_null (combine ms (joined (length ms) cs))) (seq (sumn (map fst pre)) (sumn (map fst post))) = flat_map (fun c => map (outermost_null (combine ms (map snd (snd c)))) (seq 0 (fst c))) post).
  - induction post as [|c post IH]; intros pre E; [reflexivity|]. cbn [map sumn flat_map]. rewrite seq_app, map_app. f_equal.
    + rewrite (seq_from (sumn (map fst pre))), map_map. apply map_ext_in. intros i J. apply in_seq in J. rewrite Forall_forall in H. assert (Jc : In c cs) by (rewrite <- E; apply in_elt). destruct (H c Jc) as [L K].
      unfold joined. rewrite combine_seq. replace (map snd (snd c)) with (map (fun j => snd (piece_layer j c)) (seq 0 (length ms))).
      2:{ rewrite <- L. unfold piece_layer. rewrite <- (map_map (fun j => nth j (snd c) (0, None)) snd). f_equal. apply seq_map_nth. }
      rewrite combine_seq. apply outermost_ext. apply Forall2_map_map. intros j Jj. apply in_seq in Jj. cbn [fst snd]. destruct (K j) as [M [Q S]]; [lia|].
      rewrite <- E, map_app. cbn [map]. destruct (piece_layer j c) as [k v] eqn:P. cbn [fst snd] in *.
      replace (sumn (map fst pre)) with (sumn (map fst (map (piece_layer j) pre)) * nth j ms 0).
      * apply join_at; [exact M| |exact S|lia]. rewrite Forall_forall. intros x Jx. apply in_map_iff in Jx as [c' [<- Jc']]. apply (H c'); [rewrite <- E; apply in_or_app; auto|lia].
      * assert (Hp : forall c', In c' pre -> fst (piece_layer j c') * nth j ms 0 = fst c') by (intros c' Jc'; apply (H c'); [rewrite <- E; apply in_or_app; auto|lia]).
        clear -Hp. induction pre as [|x t IH]; [reflexivity|]. cbn [map sumn]. rewrite Nat.mul_add_distr_r, (Hp x) by (left; reflexivity). rewrite IH; [reflexivity|]. intros c' J. apply Hp. right. exact J.
    + specialize (IH (pre ++ [c])). rewrite map_app, sumn_app in IH. cbn in IH. rewrite Nat.add_0_r in IH. apply IH. rewrite <- app_assoc. exact E.
  - apply (G cs []). reflexivity.
Qed.
Lemma joined_ok : forall ms cs, Forall (piece_ok ms) cs -> cs <> [] -> (forall m, In m ms -> 0 < m) ->
  piece_ok ms (sumn (map fst cs), combine (map (fun j => sumn (map fst (map (piece_layer j) cs))) (seq 0 (length ms))) (joined (length ms) cs)).
Proof.
  intros ms cs H N P. unfold joined. rewrite combine_map_map. split; [cbn; now rewrite map_length, seq_length|]. intros j J.
  match goal with |- context [piece_layer j ?x] => assert (E : piece_layer j x = (sumn (map fst (map (piece_layer j) cs)), join (map (piece_layer j) cs))) end.
  { apply (nth_map_seq _ (fun x => (sumn (map fst (map (piece_layer x) cs)), join (map (piece_layer x) cs)))). exact J. }
  rewrite E. cbn [fst snd]. rewrite Forall_forall in H. split; [apply P; apply nth_In; exact J|]. split.
  - clear E N. induction cs as [|c t IH]; [reflexivity|]. cbn [map sumn]. rewrite Nat.mul_add_distr_r, IH by (intros c' Jc; apply H; right; exact Jc). f_equal. apply (H c); [left; reflexivity|exact J].
  - unfold sized. cbn [fst snd]. destruct (join (map (piece_layer j) cs)) as [v|] eqn:Q; [|exact Logic.I]. apply join_length in Q; [exact Q|]. rewrite Forall_forall. intros x Jx. apply in_map_iff in Jx as [c [<- Jc]]. apply (proj2 (H c Jc) j J).
Qed.

(* ---- writing a page ---- *)
Definition piece_of (is : list input) : piece := (items is, map (fun i => (in_len i, in_valid i)) (rev is)).
Definition array_ok (ks : list kind) (is : list input) : Prop := Forall input_ok is /\ (exists b, build is = Some b) /\ kinds is = ks.
Definition page_ok (ks : list kind) (p : list (list input)) : Prop := p <> [] /\ Forall (array_ok ks) p /\ 0 < sumn (map items p).
Definition write_page (p : list (list input)) : option levels := obind (sequence_opt (map build p)) serialize.
Definition page_items (p : list (list input)) : nat := sumn (map items p).
Definition page_nulls (ks : list kind) (p : list (list input)) : list (option nat) := flat_map (fun is => nulls ks (validities is) (items is)) p.
Definition page_valids (ks : list kind) (p : list (list input)) : list (option (list bool)) := joined (length ks) (map piece_of p).
Lemma mults_length : forall ks m, length (mults m ks) = length ks.
Proof. induction ks as [|[|d|] ks IH]; intros m; cbn; auto. Qed.
Lemma divided_nth : forall ls m n j, divided m n ls -> 0 < m -> j < length ls ->
  0 < nth j (mults m (map in_kind ls)) 0 /\ in_len (nth j ls (IItem None 0)) * nth j (mults m (map in_kind ls)) 0 = n /\ sized (in_len (nth j ls (IItem None 0)), in_valid (nth j ls (IItem None 0))).
Proof.
  induction ls as [|[v k|v d k] ls IH]; intros m n j D M J; cbn [length] in J; [lia| |].
  - destruct D as [D1 [D2 D3]]. destruct j as [|j]; [cbn; auto|]. cbn [map in_kind mults nth]. apply (IH m n j D3 M). lia.
  - destruct D as [D0 [D1 [D2 D3]]]. destruct j as [|j]; [cbn; repeat split; auto; lia|]. cbn [map in_kind mults nth]. apply (IH (m * d) n j D3); lia.
Qed.
Lemma kinds_rev : forall is, kinds is = map in_kind (rev is).
Proof. intros is. unfold kinds. symmetry. apply map_rev. Qed.
Lemma piece_of_ok : forall ks is, array_ok ks is -> ks <> [] -> piece_ok (mults 1 ks) (piece_of is) /\ length is = length ks.
Proof.
  intros ks is [F [[b B] K]] N. assert (L : length is = length ks) by (rewrite <- K; unfold kinds; now rewrite rev_length, map_length). split; [|exact L].
  assert (NI : is <> []) by (intros ->; cbn in L; destruct ks; [congruence|discriminate]). pose proof (build_divided is b B F NI) as D. split.
  - unfold piece_of. cbn [snd]. now rewrite map_length, rev_length, mults_length.
  - intros j J. rewrite mults_length, <- L, <- rev_length in J. unfold piece_layer, piece_of. cbn [fst snd].
    rewrite (nth_indep _ (0, None) ((fun i => (in_len i, in_valid i)) (IItem None 0))) by (now rewrite map_length). rewrite (map_nth (fun i => (in_len i, in_valid i))). cbn [fst].
    rewrite <- K, kinds_rev. apply (divided_nth _ 1 _ j D); [lia|exact J].
Qed.
Lemma page_nulls_joined : forall ks p, Forall (array_ok ks) p -> ks <> [] -> nulls ks (page_valids ks p) (page_items p) = page_nulls ks p.
Proof.
  intros ks p F N. unfold nulls, page_valids, page_items, page_nulls.
  assert (H : Forall (piece_ok (mults 1 ks)) (map piece_of p)) by (apply Forall_map; eapply Forall_impl; [|exact F]; intros is A; apply (piece_of_ok ks is A N)).
  pose proof (joined_nulls (mults 1 ks) (map piece_of p) H) as J. rewrite mults_length, map_map in J. cbn [fst piece_of] in J. replace (map (fun x => items x) p) with (map items p) in J by reflexivity. rewrite J.
  clear. induction p as [|is p IH]; [reflexivity|]. cbn [map flat_map]. rewrite IH. f_equal. unfold piece_of, validities, nulls. cbn [fst snd]. rewrite map_map, map_rev. reflexivity.
Qed.

(* the layers of a page *)
Lemma sequence_nth : forall is_l ks bs i, Forall (array_ok ks) is_l -> sequence_opt (map build is_l) = Some bs -> i < length ks ->
  sequence_opt (map (fun b => nth_error (b_layers b) i) bs) = Some (map (fun is => in_layer (nth i is (IItem None 0))) is_l).
Proof.
  induction is_l as [|is t IH]; intros ks bs i F S L; cbn in S.
  - injection S as <-. reflexivity.
  - inversion F as [|? ? [F1 [_ K]] F2]; subst. destruct (build is) as [b|] eqn:B; [|discriminate]. destruct (sequence_opt (map build t)) as [bs'|] eqn:Q; [|discriminate]. injection S as <-.
    cbn [map sequence_opt]. destruct (build_spec is b B) as [-> _].
    assert (Li : i < length is) by (unfold kinds in L; now rewrite rev_length, map_length in L).
    rewrite nth_error_map, (nth_error_nth' is (IItem None 0) Li). cbn [option_map]. rewrite (IH (kinds is) bs' i F2 eq_refl L). reflexivity.
Qed.
Lemma concat_flat : forall k (ls : list input), ls <> [] -> Forall (fun i => in_kind i = k) ls -> Forall input_ok ls ->
  flat_layer k (join (map (fun i => (in_len i, in_valid i)) ls)) (concat_layers (map in_layer ls)).
Proof.
  intros k ls N F O. assert (V : (if existsb (fun l => is_some (l_valid l)) (map in_layer ls) then Some (flat_map bits (map in_layer ls)) else None) = join (map (fun i => (in_len i, in_valid i)) ls)).
  { unfold join. assert (E1 : forall l, existsb (fun l => is_some (l_valid l)) (map in_layer l) = existsb (fun p => is_some (snd p)) (map (fun i => (in_len i, in_valid i)) l)) by (induction l as [|i l IH]; [reflexivity|]; cbn; rewrite IH; destruct i; reflexivity).
    assert (E2 : forall l, flat_map bits (map in_layer l) = flat_map (fun p => bits_of (fst p) (snd p)) (map (fun i => (in_len i, in_valid i)) l)) by (induction l as [|i l IH]; [reflexivity|]; cbn; rewrite IH; destruct i; reflexivity).
    rewrite E1, E2. reflexivity. }
  unfold concat_layers. rewrite V. assert (E : last (map in_layer ls) (LValidity None 0) = in_layer (last ls (IItem None 0))).
  { clear -N. induction ls as [|i t IH]; [congruence|]. destruct t as [|j t]; [reflexivity|]. cbn [map last] in *. apply IH. discriminate. }
  rewrite E. assert (J : In (last ls (IItem None 0)) ls).
  { clear -N. induction ls as [|i t IH]; [congruence|]. destruct t as [|j t]; [left; reflexivity|]. right. apply IH. discriminate. }
  rewrite Forall_forall in F, O. specialize (F _ J). specialize (O _ J). destruct (last ls (IItem None 0)) as [v n|v d n]; cbn in F; subst k; cbn [in_layer flat_layer]; [eauto|]. destruct O as [_ O]. cbn in O. eauto.
Qed.
Lemma rev_map_seq : forall A (f : nat -> A) n, rev (map f (seq 0 n)) = map (fun i => f (n - 1 - i)) (seq 0 n).
Proof.
  intros A f n. induction n as [|n IH]; [reflexivity|]. rewrite seq_S at 1. rewrite map_app, rev_app_distr. cbn [map rev app Nat.add]. rewrite IH. cbn [seq map]. f_equal; [f_equal; lia|].
  rewrite <- seq_shift, map_map. apply map_ext_in. intros i J. apply in_seq in J. f_equal. lia.
Qed.
Lemma flat_layers_seq : forall ks (v : nat -> option (list bool)) (l : nat -> layer), (forall j, j < length ks -> flat_layer (nth j ks KItem) (v j) (l j)) -> flat_layers ks (map v (seq 0 (length ks))) (map l (seq 0 (length ks))).
Proof.
  induction ks as [|k ks IH]; intros v l H; [constructor|]. cbn [length seq map]. constructor; [apply (H 0); cbn; lia|]. rewrite <- seq_shift, !map_map. apply IH. intros j J. apply (H (S j)). cbn. lia.
Qed.
Lemma sequence_map_some : forall A B (f : A -> option B) (g : A -> B) l, (forall x, In x l -> f x = Some (g x)) -> sequence_opt (map f l) = Some (map g l).
Proof. induction l as [|x l IH]; intros H; [reflexivity|]. cbn. rewrite (H x) by (left; reflexivity). rewrite IH; [reflexivity|]. intros y J. apply H. right. exact J. Qed.
Lemma page_layer_flat : forall ks p j, Forall (array_ok ks) p -> p <> [] -> ks <> [] -> j < length ks ->
  flat_layer (nth j ks KItem) (join (map (piece_layer j) (map piece_of p))) (concat_layers (map (fun is => in_layer (nth (length ks - 1 - j) is (IItem None 0))) p)).
Proof.
  intros ks p j F NP NK J. rewrite <- (map_map (fun is => nth (length ks - 1 - j) is (IItem None 0)) in_layer).
  replace (map (piece_layer j) (map piece_of p)) with (map (fun i => (in_len i, in_valid i)) (map (fun is => nth (length ks - 1 - j) is (IItem None 0)) p)).
  - apply concat_flat; [destruct p; [congruence|discriminate]| |]; apply Forall_map; (eapply Forall_impl; [|exact F]); intros is A; destruct (piece_of_ok ks is A NK) as [_ L]; destruct A as [A1 [A2 A3]].
    + rewrite <- A3 at 2. rewrite kinds_rev. rewrite (nth_indep _ KItem (in_kind (IItem None 0))) by (rewrite map_length, rev_length; lia). rewrite map_nth, rev_nth by lia. f_equal. f_equal. lia.
    + rewrite Forall_forall in A1. apply A1. apply nth_In. lia.
  - rewrite !map_map. apply map_ext_in. intros is Ji. rewrite Forall_forall in F. destruct (piece_of_ok ks is (F is Ji) NK) as [_ L]. unfold piece_layer, piece_of. cbn [snd].
    rewrite (nth_indep _ (0, None) ((fun i => (in_len i, in_valid i)) (IItem None 0))) by (rewrite map_length, rev_length; lia). rewrite (map_nth (fun i => (in_len i, in_valid i))), rev_nth by lia.
    replace (length is - S j) with (length ks - 1 - j) by lia. reflexivity.
Qed.
Lemma page_layers : forall ks p bs, Forall (array_ok ks) p -> p <> [] -> ks <> [] -> sequence_opt (map build p) = Some bs ->
  exists ls, sequence_opt (map (fun i => omap concat_layers (sequence_opt (map (fun b => nth_error (b_layers b) i) bs))) (seq 0 (length ks))) = Some ls /\ flat_layers ks (page_valids ks p) (rev ls).
Proof.
  intros ks p bs F NP NK S. exists (map (fun i => concat_layers (map (fun is => in_layer (nth i is (IItem None 0))) p)) (seq 0 (length ks))). split.
  - apply sequence_map_some. intros i J. apply in_seq in J. rewrite (sequence_nth p ks bs i F S) by lia. reflexivity.
  - rewrite rev_map_seq. unfold page_valids, joined. apply flat_layers_seq. intros j J. apply page_layer_flat; auto.
Qed.
Lemma no_nulls : forall ks p bs, Forall (array_ok ks) p -> ks <> [] -> sequence_opt (map build p) = Some bs -> existsb b_nulls bs = false -> Forall (fun v => v = None) (page_valids ks p).
Proof.
  intros ks p bs F NK S E. assert (A : forall is i, In is p -> In i is -> in_valid i = None).
  { clear F. revert bs S E. induction p as [|is0 t IH]; intros bs S E is i J K; [destruct J|]. cbn in S. destruct (build is0) as [b|] eqn:B; [|discriminate]. destruct (sequence_opt (map build t)) as [bs'|] eqn:Q; [|discriminate]. injection S as <-.
    cbn in E. apply orb_false_iff in E as [E1 E2]. destruct J as [->|J]; [|eapply IH; eauto].
    unfold b_nulls in E1. destruct (build_spec is b B) as [L _]. rewrite L in E1. destruct (in_valid i) as [v|] eqn:V; [|reflexivity]. exfalso.
    rewrite <- not_true_iff_false in E1. apply E1. apply existsb_exists. exists (in_layer i). split; [apply in_map; exact K|]. destruct i; cbn in *; subst; reflexivity. }
  unfold page_valids, joined. apply Forall_map. rewrite Forall_forall. intros j J. apply in_seq in J. unfold join. match goal with |- (if ?e then _ else _) = _ => destruct e eqn:X; [|reflexivity] end. exfalso.
  apply existsb_exists in X as [x [Jx X]]. rewrite map_map in Jx. apply in_map_iff in Jx as [is [<- Ji]]. rewrite Forall_forall in F. destruct (piece_of_ok ks is (F is Ji) NK) as [_ L].
  unfold piece_layer, piece_of in X. cbn [snd] in X. rewrite (nth_indep _ (0, None) ((fun i => (in_len i, in_valid i)) (IItem None 0))) in X by (rewrite map_length, rev_length; lia). rewrite (map_nth (fun i => (in_len i, in_valid i))) in X. cbn [snd] in X.
  rewrite (A is _ Ji) in X; [discriminate|]. apply in_rev. apply nth_In. rewrite rev_length. lia.
Qed.
Lemma builds : forall ks p, Forall (array_ok ks) p -> exists bs, sequence_opt (map build p) = Some bs /\ Forall2 (fun is b => build is = Some b) p bs.
Proof.
  intros ks p F. induction F as [|is p [_ [[b B] _]] F [bs [S R]]]; [exists []; split; [reflexivity|constructor]|]. exists (b :: bs). cbn. rewrite B, S. split; [reflexivity|constructor; auto].
Qed.
Definition page_chain (ks : list kind) (p : list (list input)) : chain := combine (mults 1 ks) (page_valids ks p).
Definition levels_of (ks : list kind) (vs : list (option (list bool))) (n : nat) (l : levels) : Prop :=
  r_rep l = None /\ r_meaning l = map mean vs /\
  r_def l = if existsb is_some vs then Some (map (level 1 (combine (mults 1 ks) vs)) (seq 0 n)) else None.
Lemma none_exists : forall vs, Forall (fun v : option (list bool) => v = None) vs -> existsb is_some vs = false.
Proof. intros vs F. induction F as [|v vs -> F IH]; [reflexivity|exact IH]. Qed.
Theorem write_page_levels : forall ks p, page_ok ks p -> ks <> [] -> exists l, write_page p = Some l /\ levels_of ks (page_valids ks p) (page_items p) l.
Proof.
  intros ks p [NP [F P]] NK. destruct (builds ks p F) as [bs [S R]]. unfold write_page. rewrite S. cbn [obind].
  assert (LV : length (page_valids ks p) = length ks) by (unfold page_valids, joined; now rewrite map_length, seq_length).
  destruct bs as [|b0 bs']; [inversion R; subst; congruence|]. set (bs := b0 :: bs') in *. cbn [serialize bs]. fold bs.
  assert (L0 : length (b_layers b0) = length ks).
  { inversion R as [|is ? p' ? B R']; subst. inversion F as [|? ? A _]; subst. destruct (build_spec is b0 B) as [-> _]. rewrite map_length. apply (piece_of_ok ks is A NK). }
  destruct (forallb b_empty bs) eqn:EB.
  - eexists. split; [reflexivity|]. assert (V : Forall (fun v => v = None) (page_valids ks p)).
    { apply (no_nulls ks p bs F NK S). destruct (existsb b_nulls bs) eqn:X; [|reflexivity]. exfalso. apply existsb_exists in X as [b [J X]]. rewrite forallb_forall in EB. specialize (EB b J). unfold b_empty in EB. rewrite forallb_forall in EB. unfold b_nulls in X. apply existsb_exists in X as [l [Jl X]]. specialize (EB l Jl). destruct l as [| [v|] n|]; discriminate. }
    split; [reflexivity|]. cbn [r_meaning r_def]. rewrite (none_exists _ V). split; [|reflexivity]. clear -V L0 LV. rewrite <- LV in L0. clear LV. revert L0. generalize (b_layers b0). induction V as [|v vs -> V IH]; intros [|l ls] L; try discriminate; [reflexivity|]. cbn. f_equal. apply IH. cbn in L. lia.
  - assert (SL : sequence_opt (map b_len bs) = Some (map items p)).
    { clear -R F NK. revert F. induction R as [|is b p bs B R IH]; intros F; [reflexivity|]. inversion F as [|? ? A F']; subst. cbn. destruct (build_spec is b B) as [_ [Q _]]. rewrite Q; [rewrite IH by exact F'; reflexivity|]. intros ->. destruct (piece_of_ok ks [] A NK) as [_ L]. destruct ks; [congruence|discriminate]. }
    rewrite SL. cbn [obind]. destruct (page_layers ks p bs F NP NK S) as [ls [E FL]]. rewrite L0, E. cbn [obind].
    set (c0 := new_ctx (sumn (map items p)) (existsb b_nulls bs) (existsb b_offsets bs)).
    assert (D : Forall (fun v => v = None) (page_valids ks p) \/ c_def c0 = repeat 0 (sumn (map items p))).
    { destruct (existsb b_nulls bs) eqn:X; [right; reflexivity|left; apply (no_nulls ks p bs F NK S X)]. }
    destruct (record_all_flat ks _ _ FL c0) as [c [-> [C1 [C2 [C3 [C4 [C5 [C6 C7]]]]]]]]; [reflexivity|cbn; lia| |cbn; lia|].
    { destruct D as [D|D]; [left; exact D|right]. rewrite D. destruct (sumn (map items p)); [lia|discriminate]. }
    cbn [obind]. rewrite C2, C3, C4, C5. cbn [c_specials c_meaning c_cur_rep c_nulls c0 new_ctx collapse_specials Nat.ltb Nat.leb app orb].
    eexists. split; [reflexivity|]. split; [reflexivity|]. split; [reflexivity|]. cbn [r_def]. destruct (existsb is_some (page_valids ks p)) eqn:X; [|reflexivity]. f_equal.
    destruct D as [D|D]; [rewrite (none_exists _ D) in X; discriminate|].
    assert (LD : length (c_def c) = page_items p) by (rewrite C6, D, repeat_length; reflexivity).
    rewrite <- (seq_map_nth nat 0 (c_def c)), LD. apply map_ext_in. intros i J. apply in_seq in J. rewrite C7 by (rewrite D, repeat_length; unfold page_items in J; lia). cbn [c_cur_def c_mult c0 new_ctx]. rewrite D. cbn zeta.
    destruct (Nat.eqb_spec (level 1 (combine (mults 1 ks) (page_valids ks p)) i) 0) as [Q|Q]; [|reflexivity]. rewrite Q. apply nth_repeat.
Qed.
