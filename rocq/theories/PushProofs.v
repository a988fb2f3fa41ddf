(* Reading pages of a legacy fragment and selecting rows of them. *)
From Coq Require Import List Arith NArith ZArith Bool Lia.
From Coq Require Import ZifyBool ZifyN ZifyNat.
From Verif Require Import Lib AMap RowIdsModel RowIdsSpec SeqProofs SerdeModel ReadParamsModel ReadParamsProofs TreeMapModel TreeMapProofs
  DeletionModel DeletionSpec DeletionProofs StreamModel StreamProofs StatsModel StatsProofs StatsBytes StatsCollect PushModel.
Import ListNotations.
Local Open Scope nat_scope.

(* ---- one call of apply_row_id_and_deletes, in full ---- *)
Definition mk_null {A} (c : rid_config) (frag : N) (e : entry) : orow A :=
  {| o_val := e_val e; o_id := null_cell (o_id (mk c frag e)); o_addr := null_cell (o_addr (mk c frag e)) |}.
Definition live_e {A} (c : rid_config) (e : @entry A) : bool := negb (deleted c (e_off e)).

Lemma apply_full : forall {A} (es : list (@entry A)) frag c p',
  (frag < two32)%N -> (forall e, In e es -> (N.of_nat (e_off e) < two32)%N) ->
  p_slice (c_params c) 0 (length es) = Some p' -> to_offsets p' = Some (map e_off es) ->
  (c_with_id c = true ->
   match c_seq c with
   | Some q => slice_ids q 0 (length es) = Ok (map e_id es)
   | None => forall e, In e es -> e_id e = new_from_parts frag (N.of_nat (e_off e))
   end) ->
  apply_row_id_and_deletes (map e_val es) 0 frag c =
  Ok (if c_null c
      then if forallb (fun e => negb (live_e c e)) es then [] else map (fun e => if live_e c e then mk c frag e else mk_null c frag e) es
      else map (mk c frag) (filter (live_e c) es)).
Proof.
  intros A es frag c p' Hf Ho Hs Hoff Hids. unfold apply_row_id_and_deletes.
  rewrite map_length, Hs, Hoff, map_map.
  set (g := fun e : @entry A => new_from_parts frag (N.of_nat (e_off e))).
  change (map (fun x => new_from_parts frag (N.of_nat (e_off x))) es) with (map g es).
  set (del := match c_dv c with Some NoDel => None | x => x end).
  set (hd := match del with Some _ => true | None => false end).
  set (fetch := c_with_addr c || (c_with_id c && match c_seq c with None => true | _ => false end) || hd).
  assert (Ea : (if fetch then Ok (Some (map g es)) else Ok None) = Ok (if fetch then Some (map g es) else None)) by (destruct fetch; auto).
  rewrite Ea. clear Ea.
  assert (Ei : (if c_with_id c then match c_seq c with
                 | Some q => match slice_ids q 0 (length es) with Ok l => Ok (Some l) | Err => Err | Panic => Panic end
                 | None => Ok (if fetch then Some (map g es) else None) end else Ok None) =
               Ok (if c_with_id c then Some (map e_id es) else None)).
  { destruct (c_with_id c) eqn:Ew; auto. specialize (Hids eq_refl). destruct (c_seq c) as [q|].
    - now rewrite Hids.
    - unfold fetch. rewrite orb_true_r. cbn. do 2 f_equal. apply map_ext_in. intros e He. symmetry. apply Hids, He. }
  rewrite Ei. clear Ei.
  replace (match (if c_with_id c then Some (map e_id es) else None) with Some l => negb (length l =? length es) | None => false end)
    with false by (destruct (c_with_id c); auto; rewrite map_length, Nat.eqb_refl; auto).
  replace (c_with_addr c && match (if fetch then Some (map g es) else None) with Some l => negb (length l =? length es) | None => true end)
    with false.
  2:{ unfold fetch. destruct (c_with_addr c); auto. cbn. now rewrite map_length, Nat.eqb_refl. }
  cbn [orb].
  assert (Ez : zip_cells (map e_val es) (if c_with_id c then Some (map e_id es) else None)
            (if c_with_addr c then (if fetch then Some (map g es) else None) else None) = map (mk c frag) es).
  { replace (if c_with_addr c then (if fetch then Some (map g es) else None) else None)
      with (if c_with_addr c then Some (map g es) else None) by (unfold fetch; destruct (c_with_addr c); auto).
    apply zip_cells_spec. }
  rewrite Ez. clear Ez.
  assert (Em : match del, (if fetch then Some (map g es) else None) with
               | Some d, Some a => dv_build_predicate d a | _, _ => None end =
               match del with Some _ => Some (map (live_e c) es) | None => None end).
  { unfold fetch, hd. unfold del. destruct (c_dv c) as [d|] eqn:Ed; [|destruct (_ || _); reflexivity].
    unfold live_e, deleted. rewrite Ed.
    destruct d as [|s|b]; [destruct (_ || _); reflexivity| |]; rewrite orb_true_r; cbn [dv_build_predicate dv_contains]; rewrite map_map;
      f_equal; apply map_ext_in; intros e He; unfold g; do 2 f_equal;
      destruct (address_roundtrip frag (N.of_nat (e_off e)) Hf (Ho e He)) as [_ [_ Hr]]; exact Hr. }
  rewrite Em. clear Em.
  assert (Hnone : del = None -> forall e : @entry A, live_e c e = true).
  { unfold del. intros H e. unfold live_e, deleted. destruct (c_dv c) as [[|s|b]|]; try discriminate; auto. }
  destruct del as [d|] eqn:Edel.
  - destruct (c_null c) eqn:En; [|f_equal; apply filter_mask_map]. f_equal. unfold deletions_as_nulls.
    assert (Ef : forallb negb (map (live_e c) es) = forallb (fun e => negb (live_e c e)) es).
    { clear. induction es; cbn [map forallb]; congruence. }
    rewrite Ef. destruct (forallb _ es); auto. clear. induction es as [|e es IH]; auto. cbn [map combine]. f_equal; auto.
  - rewrite (filter_all_true (live_e c) es) by (intros; auto). destruct (c_null c); auto. f_equal.
    destruct es as [|e es]; auto. replace (forallb (fun e0 => negb (live_e c e0)) (e :: es)) with false by (cbn [forallb]; rewrite (Hnone eq_refl e); auto).
    apply map_ext. intros x. rewrite (Hnone eq_refl x). reflexivity.
Qed.

(* ---- positions of the elements that pass a test ---- *)
Definition positions {X} (k : X -> bool) (l : list X) (s : nat) : list nat :=
  flat_map (fun '(i, x) => if k x then [i] else []) (combine (seq s (length l)) l).
Lemma positions_cons : forall {X} (k : X -> bool) x l s, positions k (x :: l) s = (if k x then [s] else []) ++ positions k l (S s).
Proof. reflexivity. Qed.
Lemma positions_nth : forall {X Y} (k : X -> bool) (f : X -> Y) l pre,
  sequence_opt (map (nth_error (map f (pre ++ l))) (positions k l (length pre))) = Some (map f (filter k l)).
Proof.
  intros X Y k f. induction l as [|x l IH]; intros pre; auto.
  rewrite positions_cons. specialize (IH (pre ++ [x])). rewrite app_length, Nat.add_1_r, <- app_assoc in IH. cbn [app] in IH.
  cbn [filter]. destruct (k x); cbn [app map sequence_opt]; auto.
  rewrite nth_error_map, nth_error_app2, Nat.sub_diag by lia. cbn [nth_error option_map]. rewrite IH. reflexivity.
Qed.
Lemma positions_take : forall {X Y} (k : X -> bool) (f : X -> Y) l,
  sequence_opt (map (nth_error (map f l)) (positions k l 0)) = Some (map f (filter k l)).
Proof. intros. apply (positions_nth k f l []). Qed.
Lemma positions_shift : forall {X} (k : X -> bool) l s d, map (fun i => i + d) (positions k l s) = positions k l (s + d).
Proof.
  intros X k. induction l as [|x l IH]; intros s d; auto. rewrite !positions_cons, map_app, IH. cbn [plus].
  destruct (k x); reflexivity.
Qed.
Lemma positions_ext : forall {X Y} (k : X -> bool) (k' : Y -> bool) l l' s, length l = length l' ->
  (forall i x y, nth_error l i = Some x -> nth_error l' i = Some y -> k x = k' y) -> positions k l s = positions k' l' s.
Proof.
  intros X Y k k'. induction l as [|x l IH]; intros [|y l'] s L H; try discriminate; auto.
  rewrite !positions_cons, (H 0 x y eq_refl eq_refl). f_equal. apply IH; [cbn [length] in L; lia|].
  intros i a b Ha Hb. apply (H (S i)); auto.
Qed.
Lemma positions_nil : forall {X} (k : X -> bool) l s, positions k l s = [] -> filter k l = [].
Proof.
  intros X k. induction l as [|x l IH]; intros s H; auto. rewrite positions_cons in H. cbn [filter]. destruct (k x); [discriminate|].
  apply (IH (S s)). exact H.
Qed.
Lemma positions_all_false : forall {X} (k : X -> bool) l s, (forall x, In x l -> k x = false) -> positions k l s = [].
Proof.
  intros X k. induction l as [|x l IH]; intros s H; auto. rewrite positions_cons, (H x (or_introl eq_refl)). cbn [app].
  apply IH. intros y Hy. apply H. right; auto.
Qed.
