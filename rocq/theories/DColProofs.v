From Coq Require Import List Arith NArith Bool Lia ZifyBool ZifyN ZifyNat.
From Verif Require Import Lib PageModel ListEncModel ListEncProofs SerdeModel SerdeProofs FlatModel FlatProofs FlatPage DColModel.
From Verif Require BinEncModel BinEncProofs.
Import ListNotations.
Local Open Scope nat_scope.

(* ---- specification ---- *)
Definition vals_ok (vt : vty) (v : dvals) : Prop :=
  match vt, v with
  | VTFlat t, DFlat arrs => t_ok t /\ Forall (f_wf t) arrs
  | VTStr _, DStr arrs => Forall array_ok arrs
  | _, _ => False
  end.
(* a dictionary array of arrow: keys of the key type, those of valid rows within the dictionary *)
Definition da_ok (k : kty) (vt : vty) (a : darr) : Prop :=
  vals_ok vt (da_vals a) /\ match da_kvalid a with Some b => length b = length (da_keys a) | None => True end /\
  Forall (fun p : bool * N => fst p = true -> (snd p <= k_max k)%N /\ N.to_nat (snd p) < dv_len (da_vals a)) (combine (key_bits a) (da_keys a)).
(* what arrow promises of concat: if it succeeds, an array of the same type with the rows of the arrays *)
Definition cat_ok (cat : concat_of) : Prop := forall k vt arrays a, Forall (da_ok k vt) arrays -> cat k arrays = Some a ->
  da_ok k vt a /\ da_rows vt a = flat_map (da_rows vt) arrays.
Definition k_ok (k : kty) : Prop := 0 < k_bytes k.

Definition nonnull (x : lval) : bool := match x with VNull => false | _ => true end.
Definition dv_bits (v : dvals) : list bool := match dv_valid v with Some b => b | None => repeat true (dv_len v) end.

(* ---- values and their validity ---- *)
Lemma map_true {A} : forall (f : A -> bool) l, (forall x, f x = true) -> map f l = repeat true (length l).
Proof. intros f l H. induction l as [|x l IH]; [reflexivity|]. cbn. now rewrite H, IH. Qed.
Lemma raw_nonnull : forall t a, map nonnull (raw t a) = repeat true (length (raw t a)).
Proof. intros t a. destruct t, a; cbn [raw map length repeat]; try reflexivity; rewrite map_map, map_length; now apply map_true. Qed.
Lemma raws_nonnull : forall t arrs, map nonnull (flat_map (raw t) arrs) = repeat true (length (flat_map (raw t) arrs)).
Proof. intros t. induction arrs as [|a arrs IH]; [reflexivity|]. cbn [flat_map]. rewrite map_app, IH, raw_nonnull, app_length, repeat_app. reflexivity. Qed.
Lemma mask_nonnull : forall b l, length b = length l -> map nonnull l = repeat true (length l) -> map nonnull (mask_with (Some b) l) = b.
Proof.
  induction b as [|x b IH]; intros l H N; destruct l as [|y l]; cbn in *; try discriminate; [reflexivity|]. injection N as N1 N2. injection H as H. f_equal; [destruct x; auto|]. apply (IH l H N2).
Qed.
Lemma no_valid_bits : forall arrs, forallb (fun a => match a_valid a with None => true | _ => false end) arrs = true -> flat_map valid_bits arrs = repeat true (sumn (map a_len arrs)).
Proof.
  induction arrs as [|a arrs IH]; intros H; [reflexivity|]. cbn [forallb flat_map map sumn] in *. apply andb_true_iff in H as [H1 H2]. rewrite (IH H2), repeat_app. unfold valid_bits. now destruct (a_valid a).
Qed.
Lemma lb_cons : forall V a b os vs (v : list V), lists_between (a :: b :: os) vs v = (if hd true vs then Some (slice a b v) else None) :: lists_between (b :: os) (tl vs) v.
Proof. reflexivity. Qed.
Lemma lists_between_length : forall V os vs (v : list V), length (lists_between os vs v) = length os - 1.
Proof. induction os as [|a os IH]; intros vs v; [reflexivity|]. destruct os as [|b os]; [reflexivity|]. rewrite lb_cons. cbn [length]. rewrite IH. cbn [length]. lia. Qed.
Lemma lists_length : forall a : larr nat, length (lists_of a) = BinEncModel.rows_in_array a.
Proof. intros a. apply lists_between_length. Qed.
Lemma strings_length : forall arrs, length (BinEncProofs.strings_of arrs) = sumn (map BinEncModel.rows_in_array arrs).
Proof. unfold BinEncProofs.strings_of. induction arrs as [|a arrs IH]; [reflexivity|]. cbn [map concat sumn]. now rewrite app_length, IH, lists_length. Qed.
Lemma lists_bits : forall os vs (v : list nat), length os - 1 = length vs -> map (fun o => nonnull (str_val o)) (lists_between os vs v) = vs.
Proof.
  induction os as [|a os IH]; intros vs v H. { destruct vs; [reflexivity|discriminate]. } destruct os as [|b os]. { destruct vs; [reflexivity|discriminate]. }
  destruct vs as [|x vs]; [discriminate|]. rewrite lb_cons. cbn [map hd tl]. rewrite IH by (cbn in *; lia). now destruct x.
Qed.
Lemma lists_all : forall os (v : list nat), map (fun o => nonnull (str_val o)) (lists_between os [] v) = repeat true (length os - 1).
Proof. induction os as [|a os IH]; intros v; [reflexivity|]. destruct os as [|b os]; [reflexivity|]. rewrite lb_cons. cbn [map hd tl]. rewrite IH. cbn [length]. replace (S (S (length os)) - 1) with (S (S (length os) - 1)) by lia. reflexivity. Qed.
Lemma array_bits : forall a : larr nat, array_ok a -> map (fun o => nonnull (str_val o)) (lists_of a) = match la_valid a with Some b => b | None => repeat true (BinEncModel.rows_in_array a) end.
Proof. intros a (A1 & A2 & A3). unfold lists_of. destruct (la_valid a); [apply lists_bits; lia|apply lists_all]. Qed.
Lemma dv_length : forall vt v, vals_ok vt v -> length (dv_logical vt v) = dv_len v.
Proof. intros [t|l] [arrs|arrs] H; cbn in H; try contradiction; cbn [dv_logical dv_len]; [now apply sum_logical|]. now rewrite map_length, strings_length. Qed.
Lemma dv_nonnull : forall vt v, vals_ok vt v -> map nonnull (dv_logical vt v) = dv_bits v.
Proof.
  intros [t|l] [arrs|arrs] H; cbn in H; try contradiction; unfold dv_bits; cbn [dv_logical dv_len dv_valid].
  - destruct H as [T F]. assert (B : map nonnull (flat_map (logical t) arrs) = flat_map valid_bits arrs).
    { rewrite (all_bits t arrs F). apply mask_nonnull; [now rewrite (sum_bits t), (sum_raw t)|apply raws_nonnull]. }
    rewrite B. destruct (forallb _ arrs) eqn:E; [now apply no_valid_bits|reflexivity].
  - rewrite map_map. unfold BinEncProofs.strings_of. set (g := fun a : larr nat => match la_valid a with Some b => b | None => repeat true (BinEncModel.rows_in_array a) end).
    assert (B : map (fun x => nonnull (str_val x)) (concat (map lists_of arrs)) = flat_map g arrs).
    { induction H as [|a arrs A F IH]; [reflexivity|]. cbn [map concat flat_map]. rewrite map_app, IH, (array_bits a A). reflexivity. }
    rewrite B. destruct (forallb _ arrs) eqn:E; [|reflexivity]. clear - E. induction arrs as [|a arrs IH]; [reflexivity|]. cbn [forallb flat_map map sumn] in *. apply andb_true_iff in E as [E1 E2].
    rewrite (IH E2), repeat_app. unfold g. now destruct (la_valid a).
Qed.
Lemma nth_nonnull : forall l i, nonnull (nth i l VNull) = nth i (map nonnull l) false.
Proof. intros l i. now rewrite <- (map_nth nonnull). Qed.
Lemma key_bits_length : forall k vt a, da_ok k vt a -> length (key_bits a) = length (da_keys a).
Proof. intros k vt a (_ & H & _). unfold key_bits. destruct (da_kvalid a); [exact H|now rewrite repeat_length]. Qed.
Lemma da_rows_length : forall k vt a, da_ok k vt a -> length (da_rows vt a) = da_len a.
Proof. intros k vt a H. unfold da_rows. rewrite map_length, combine_length, (key_bits_length k vt a H). unfold da_len. lia. Qed.
Lemma map_fst_combine {A B} : forall (a : list A) (b : list B), length a = length b -> map fst (combine a b) = a.
Proof. induction a; intros [|y b] H; cbn in *; try discriminate; [reflexivity|]. f_equal. auto. Qed.
Lemma map_snd_combine {A B} : forall (a : list A) (b : list B), length a = length b -> map snd (combine a b) = b.
Proof. induction a; intros [|y b] H; cbn in *; try discriminate; [reflexivity|]. f_equal. auto. Qed.
Lemma da_nonnull : forall k vt a, da_ok k vt a -> map nonnull (da_rows vt a) = da_bits a.
Proof.
  intros k vt a OK. pose proof (key_bits_length k vt a OK) as KL. destruct OK as (V & _ & K). unfold da_rows. rewrite map_map. pose proof (dv_nonnull vt _ V) as DN. pose proof (dv_length vt _ V) as DL.
  assert (M : map (fun p : bool * N => nonnull (if fst p then nth (N.to_nat (snd p)) (dv_logical vt (da_vals a)) VNull else VNull)) (combine (key_bits a) (da_keys a)) =
              map (key_null (dv_bits (da_vals a))) (combine (key_bits a) (da_keys a))).
  { apply map_ext_in. intros [b x] P. rewrite Forall_forall in K. specialize (K _ P). unfold key_null. cbn [fst snd] in *. destruct b; [|reflexivity]. rewrite nth_nonnull, DN.
    apply nth_indep. rewrite <- DN, map_length, DL. now apply K. }
  rewrite M. unfold da_bits, da_nulls, dv_bits. destruct (dv_valid (da_vals a)) as [b|]; [reflexivity|].
  assert (Q : map (key_null (repeat true (dv_len (da_vals a)))) (combine (key_bits a) (da_keys a)) = key_bits a).
  { rewrite <- (map_fst_combine (key_bits a) (da_keys a) KL) at 2. apply map_ext. intros [x y]. unfold key_null. cbn [fst snd]. destruct x; [|reflexivity].
    destruct (nth_in_or_default (N.to_nat y) (repeat true (dv_len (da_vals a))) true) as [I|D]; [now apply repeat_spec in I|exact D]. }
  rewrite Q. unfold key_bits. now destruct (da_kvalid a).
Qed.
Lemma all_nonnull : forall k vt arrays, Forall (da_ok k vt) arrays -> map nonnull (flat_map (da_rows vt) arrays) = flat_map da_bits arrays.
Proof. intros k vt arrays F. induction F as [|a l A F IH]; [reflexivity|]. cbn [flat_map]. now rewrite map_app, IH, (da_nonnull k vt a A). Qed.
Lemma all_rows_length : forall k vt arrays, Forall (da_ok k vt) arrays -> length (flat_map (da_rows vt) arrays) = sumn (map da_len arrays).
Proof. intros k vt arrays F. induction F as [|a l A F IH]; [reflexivity|]. cbn [flat_map map sumn]. now rewrite app_length, IH, (da_rows_length k vt a A). Qed.
Lemma no_nulls_bits : forall k vt arrays, Forall (da_ok k vt) arrays -> forallb (fun a => match da_nulls a with None => true | Some _ => false end) arrays = true ->
  flat_map da_bits arrays = repeat true (sumn (map da_len arrays)).
Proof.
  intros k vt arrays F. induction F as [|a l A F IH]; intros H; [reflexivity|]. cbn [forallb flat_map map sumn] in *. apply andb_true_iff in H as [H1 H2]. rewrite (IH H2), repeat_app.
  unfold da_bits, da_len. now destruct (da_nulls a).
Qed.
Lemma nonnull_false : forall l, map nonnull l = repeat false (length l) -> l = repeat VNull (length l).
Proof. induction l as [|x l IH]; intros H; [reflexivity|]. cbn in *. injection H as H1 H2. f_equal; [now destruct x|auto]. Qed.

(* ---- nulls in the dictionary ---- *)
Lemma first_false_some : forall b i j, first_false b i = Some j -> i <= j /\ j < i + length b /\ nth (j - i) b true = false.
Proof.
  induction b as [|x b IH]; intros i j H; [discriminate|]. cbn [first_false] in H. destruct x.
  - apply IH in H as (H1 & H2 & H3). cbn [length]. repeat split; [lia|lia|]. replace (j - i) with (S (j - S i)) by lia. exact H3.
  - injection H as <-. cbn [length]. repeat split; [lia|lia|]. now rewrite Nat.sub_diag.
Qed.
Lemma first_invalid_null : forall vt v j, vals_ok vt v -> first_invalid v = Some j -> j < dv_len v /\ nth j (dv_logical vt v) VNull = VNull.
Proof.
  intros vt v j V H. unfold first_invalid in H. pose proof (dv_nonnull vt v V) as N. pose proof (dv_length vt v V) as L. unfold dv_bits in N. destruct (dv_valid v) as [b|]; [|discriminate].
  apply first_false_some in H as (_ & H1 & H2). rewrite Nat.sub_0_r in H2. cbn in H1. assert (LB : length b = dv_len v) by (rewrite <- L, <- N, map_length; reflexivity).
  split; [lia|]. assert (Q : nonnull (nth j (dv_logical vt v) VNull) = false). { rewrite nth_nonnull, N, <- H2. apply nth_indep. lia. } now destruct (nth j (dv_logical vt v) VNull).
Qed.
Lemma null_wf : forall t n, f_wf t (null_arr t n).
Proof.
  induction t as [w| |t IH d]; intros n; cbn [null_arr f_wf].
  - split; [|now rewrite !repeat_length]. apply Forall_forall. intros x X. apply repeat_spec in X. subst. apply repeat_length.
  - now rewrite !repeat_length.
  - rewrite nulls_len, repeat_length. auto.
Qed.
Lemma push_null_ok : forall vt v, vals_ok vt v -> vals_ok vt (push_null vt v) /\ dv_logical vt (push_null vt v) = dv_logical vt v ++ [VNull] /\ dv_len (push_null vt v) = S (dv_len v).
Proof.
  intros [t|l] [arrs|arrs] H; cbn in H; try contradiction; cbn [push_null vals_ok dv_logical dv_len].
  - destruct H as [T F]. split; [split; [exact T|apply Forall_app; split; [exact F|constructor; [apply null_wf|constructor]]]|]. split.
    + rewrite flat_map_app. cbn [flat_map]. now rewrite nulls_logical.
    + rewrite map_app, sumn_app. cbn [map sumn]. rewrite nulls_len. lia.
  - split; [apply Forall_app; split; [exact H|constructor; [|constructor]]; unfold array_ok; cbn; repeat split; lia|]. split.
    + unfold BinEncProofs.strings_of. rewrite map_app, concat_app, map_app. reflexivity.
    + rewrite map_app, sumn_app. cbn. lia.
Qed.
(* ---- blocks ---- *)
Definition block_ok (k : kty) (vt : vty) (b : dblock) (rows : list lval) : Prop :=
  db_key b = k /\ vals_ok vt (db_vals b) /\ 0 < dv_len (db_vals b) /\
  Forall (fun x => (x <= k_max k)%N /\ N.to_nat x < dv_len (db_vals b)) (db_keys b) /\
  map (fun x => nth (N.to_nat x) (dv_logical vt (db_vals b)) VNull) (db_keys b) = rows.
Lemma put_rows : forall (kb : list bool) (keys : list N) (L L' : list lval) v idx,
  length kb = length keys ->
  v = map nonnull (map (fun p : bool * N => if fst p then nth (N.to_nat (snd p)) L VNull else VNull) (combine kb keys)) ->
  (forall x, N.to_nat x < length L -> nth (N.to_nat x) L' VNull = nth (N.to_nat x) L VNull) -> nth idx L' VNull = VNull ->
  Forall (fun p : bool * N => fst p = true -> N.to_nat (snd p) < length L) (combine kb keys) ->
  map (fun x => nth (N.to_nat x) L' VNull) (map (fun p : bool * N => if fst p then snd p else N.of_nat idx) (combine v keys)) =
  map (fun p : bool * N => if fst p then nth (N.to_nat (snd p)) L VNull else VNull) (combine kb keys).
Proof.
  intros kb keys L L' v idx KL -> A0 Z F. revert keys KL F. induction kb as [|b kb IH]; intros [|x keys] KL F; cbn in KL; try discriminate; [reflexivity|].
  cbn [combine map fst snd] in *. apply Forall_cons_iff in F as [F1 F2]. cbn [fst snd] in F1. f_equal; [|apply IH; auto].
  destruct b.
  - destruct (nonnull (nth (N.to_nat x) L VNull)) eqn:E; [apply A0; auto|]. rewrite Nnat.Nat2N.id, Z. now destruct (nth (N.to_nat x) L VNull).
  - cbn [nonnull]. now rewrite Nnat.Nat2N.id.
Qed.
Lemma put_in : forall (v : list bool) (keys : list N) idx y, In y (map (fun p : bool * N => if fst p then snd p else N.of_nat idx) (combine v keys)) ->
  y = N.of_nat idx \/ In (true, y) (combine v keys).
Proof. intros v keys idx y H. apply in_map_iff in H as [[b x] [E P]]. cbn [fst snd] in E. destruct b; [right; now subst|left; now subst]. Qed.
(* a valid row has a valid key *)
Lemma valid_key : forall (kb : list bool) (keys : list N) (L : list lval) y, length kb = length keys ->
  In (true, y) (combine (map nonnull (map (fun p : bool * N => if fst p then nth (N.to_nat (snd p)) L VNull else VNull) (combine kb keys))) keys) -> In (true, y) (combine kb keys).
Proof.
  induction kb as [|b kb IH]; intros [|x keys] L y H I; cbn in H; try discriminate; [contradiction|]. cbn [combine map fst snd] in *. destruct I as [I|I]; [|right; eauto].
  injection I as I1 <-. left. destruct b; [reflexivity|discriminate].
Qed.
Definition null_index (v : dvals) : nat := match first_invalid v with Some j => j | None => dv_len v end.
Lemma dict_block_ok : forall cat k vt arrays a, cat_ok cat -> Forall (da_ok k vt) arrays -> cat k arrays = Some a ->
  let rows := flat_map (da_rows vt) arrays in map nonnull rows <> repeat false (length rows) ->
  (forall validity, (validity = None -> map nonnull rows = repeat true (length rows)) -> (validity <> None -> validity = Some (map nonnull rows)) ->
   (validity <> None -> (N.of_nat (null_index (da_vals a)) <= k_max k)%N) ->
   exists b, dict_block cat k vt arrays validity = Some b /\ block_ok k vt b rows).
Proof.
  intros cat k vt arrays a C F CA rows NF validity V1 V2 FIT. destruct (C k vt arrays a F CA) as [OK R]. fold rows in R. pose proof (key_bits_length k vt a OK) as KL. destruct OK as (V & _ & K).
  unfold dict_block, concat_dict. rewrite CA. pose proof (dv_length vt _ V) as DL.
  assert (K' : Forall (fun p : bool * N => fst p = true -> N.to_nat (snd p) < length (dv_logical vt (da_vals a))) (combine (key_bits a) (da_keys a))).
  { rewrite DL. eapply Forall_impl; [|exact K]. intros p H T. now apply H. }
  assert (POS : 0 < dv_len (da_vals a)).
  { destruct (dv_len (da_vals a)) eqn:Z; [|lia]. exfalso. apply NF. rewrite <- R. clear - K' DL. unfold da_rows. rewrite map_length. induction (combine (key_bits a) (da_keys a)) as [|p l IH]; [reflexivity|].
    apply Forall_cons_iff in K' as [K1 K2]. cbn [map length repeat]. rewrite (IH K2). f_equal. destruct (fst p); [specialize (K1 eq_refl); lia|reflexivity]. }
  destruct validity as [v|].
  - assert (E : v = map nonnull rows) by (assert (Some v = Some (map nonnull rows)) by (apply V2; discriminate); congruence). subst v.
    assert (FI : (N.of_nat (null_index (da_vals a)) <= k_max k)%N) by (apply FIT; discriminate). unfold null_index in FI.
    assert (VK : forall y, In (true, y) (combine (map nonnull rows) (da_keys a)) -> (y <= k_max k)%N /\ N.to_nat y < dv_len (da_vals a)).
    { intros y Y. rewrite <- R in Y. unfold da_rows in Y. apply valid_key in Y; [|exact KL]. rewrite Forall_forall in K. now apply (K _ Y). }
    assert (VR : map nonnull rows = map nonnull (map (fun p : bool * N => if fst p then nth (N.to_nat (snd p)) (dv_logical vt (da_vals a)) VNull else VNull) (combine (key_bits a) (da_keys a)))) by now rewrite <- R.
    destruct (first_invalid (da_vals a)) as [j|] eqn:FJ.
    + destruct (first_invalid_null vt _ j V FJ) as [J1 J2]. replace (k_max k <? N.of_nat j)%N with false by (symmetry; apply N.ltb_ge; exact FI).
      eexists. split; [reflexivity|]. unfold block_ok. cbn [db_key db_vals db_keys]. split; [reflexivity|]. split; [exact V|]. split; [exact POS|]. split.
      * apply Forall_forall. intros y Y. apply put_in in Y as [-> |Y]; [rewrite Nnat.Nat2N.id; auto|now apply VK].
      * rewrite put_rows with (kb := key_bits a) (L := dv_logical vt (da_vals a)); auto.
    + destruct (push_null_ok vt _ V) as (P1 & P2 & P3). replace (k_max k <? N.of_nat (dv_len (da_vals a)))%N with false by (symmetry; apply N.ltb_ge; exact FI).
      eexists. split; [reflexivity|]. unfold block_ok. cbn [db_key db_vals db_keys]. split; [reflexivity|]. split; [exact P1|]. split; [lia|]. split.
      * apply Forall_forall. intros y Y. apply put_in in Y as [-> |Y]; [rewrite Nnat.Nat2N.id; split; [exact FI|lia]|]. destruct (VK y Y). split; [assumption|lia].
      * rewrite put_rows with (kb := key_bits a) (L := dv_logical vt (da_vals a)); auto; rewrite P2.
        -- intros x X. now rewrite app_nth1.
        -- rewrite app_nth2 by lia. replace (dv_len (da_vals a) - length (dv_logical vt (da_vals a))) with 0 by lia. reflexivity.
  - eexists. split; [reflexivity|]. unfold block_ok. cbn [db_key db_vals db_keys]. split; [reflexivity|]. split; [exact V|]. split; [exact POS|].
    specialize (V1 eq_refl). assert (AT : forall p, In p (combine (key_bits a) (da_keys a)) -> fst p = true).
    { rewrite <- R in V1. unfold da_rows in V1. rewrite map_length in V1. clear - V1. induction (combine (key_bits a) (da_keys a)) as [|q l IH]; intros p P; [contradiction|]. cbn [map length repeat] in V1.
      injection V1 as W1 W2. destruct P as [<-|P]; [destruct (fst q); [reflexivity|discriminate]|auto]. }
    split.
    + rewrite <- (map_snd_combine _ _ KL). apply Forall_forall. intros y Y. apply in_map_iff in Y as [p [<- P]]. rewrite Forall_forall in K. apply (K p P). auto.
    + rewrite <- (map_snd_combine _ _ KL) at 1. rewrite map_map, <- R. unfold da_rows. apply map_ext_in. intros p P. now rewrite (AT p P).
Qed.
(* the rows of the arrays are those of the block *)
Lemma from_arrays_ok : forall cat k vt arrays a, cat_ok cat -> k_ok k -> (match vt with VTFlat t => t_ok t | _ => True end) -> Forall (da_ok k vt) arrays -> cat k arrays = Some a ->
  0 < sumn (map da_len arrays) -> (da_extract arrays (sumn (map da_len arrays)) <> NNone -> (N.of_nat (null_index (da_vals a)) <= k_max k)%N) ->
  exists b, dict_from_arrays cat k vt arrays = Some b /\ block_ok k vt b (flat_map (da_rows vt) arrays).
Proof.
  intros cat k vt arrays a C KO T F CA P FIT. unfold dict_from_arrays. pose proof (all_nonnull k vt arrays F) as AN. pose proof (all_rows_length k vt arrays F) as AL. set (rows := flat_map (da_rows vt) arrays) in *.
  replace (match arrays with [] => true | _ :: _ => sumn (map da_len arrays) =? 0 end) with false by (destruct arrays; [cbn in P; lia|symmetry; apply Nat.eqb_neq; lia]).
  unfold da_extract in *. destruct (forallb _ arrays) eqn:NN.
  - apply (dict_block_ok cat k vt arrays a C F CA); fold rows.
    + rewrite AN, (no_nulls_bits k vt arrays F NN), AL. destruct (sumn (map da_len arrays)); [lia|discriminate].
    + intros _. rewrite AN, (no_nulls_bits k vt arrays F NN). now rewrite AL.
    + intros H. now destruct H.
    + intros H. now destruct H.
  - destruct (length (filter negb (flat_map da_bits arrays)) =? sumn (map da_len arrays)) eqn:EA.
    + apply Nat.eqb_eq in EA. rewrite <- AN in EA. assert (RN : rows = repeat VNull (length rows)). { apply nonnull_false. rewrite <- (map_length nonnull rows). apply all_false. rewrite EA. now rewrite map_length, AL. }
      eexists. split; [reflexivity|]. unfold block_ok. cbn [db_key db_vals db_keys]. set (z := match vt with VTFlat _ => DFlat [] | VTStr _ => DStr [] end).
      assert (Z : vals_ok vt z) by (destruct vt; cbn; auto). destruct (push_null_ok vt z Z) as (P1 & P2 & P3). assert (Z2 : dv_logical vt z = []) by now destruct vt. assert (Z3 : dv_len z = 0) by now destruct vt.
      split; [reflexivity|]. split; [exact P1|]. split; [lia|]. split.
      * apply Forall_forall. intros y Y. apply repeat_spec in Y. subst y. rewrite P3, Z3. split; [lia|cbn; lia].
      * rewrite P2, Z2, <- AL. rewrite RN at 2. clear. induction (length rows) as [|n IH]; [reflexivity|]. cbn [repeat map]. now rewrite IH.
    + apply (dict_block_ok cat k vt arrays a C F CA); fold rows.
      * intros H. apply Nat.eqb_neq in EA. apply EA. rewrite <- AN, H, <- AL. clear. induction (length rows) as [|n IH]; [reflexivity|]. cbn. now rewrite IH.
      * discriminate.
      * intros _. now rewrite AN.
      * intros _. apply FIT. discriminate.
Qed.
