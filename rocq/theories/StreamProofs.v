(* C25: row ids, row addresses and deletions of a fragment read. *)
From Coq Require Import List Arith NArith Bool Lia.
From Coq Require Import ZifyBool ZifyN ZifyNat.
From Verif Require Import Lib AMap RowIdsModel RowIdsSpec SeqProofs SerdeModel ReadParamsModel ReadParamsProofs TreeMapModel TreeMapProofs
  DeletionModel DeletionSpec DeletionProofs StreamModel.
Import ListNotations.
Local Open Scope nat_scope.

(* what the reader should produce for the row with value [a] at physical offset
   [o] of fragment [frag]; [ids] are the fragment's stable row ids, if any *)
Definition expected {A} (c : rid_config) (frag : N) (ids : option (list N)) (a : A) (o : nat) : orow A :=
  {| o_val := a;
     o_id := if c_with_id c then
               match ids with
               | Some l => match nth_error l o with Some v => CVal v | None => CNull end
               | None => CVal (frag * two32 + N.of_nat o)
               end
             else NoCol;
     o_addr := if c_with_addr c then CVal (frag * two32 + N.of_nat o) else NoCol |}.
Definition deleted (c : rid_config) (o : nat) : bool :=
  match c_dv c with Some d => dv_contains d (N.of_nat o) | None => false end.
(* a row not marked as deleted by a null id or address *)
Definition marked_live {A} (r : orow A) : bool :=
  match o_id r, o_addr r with CNull, _ => false | _, CNull => false | _, _ => true end.

(* an entry of the request: value, physical offset, row id *)
Section Entries.
  Context {A : Type}.
  Definition entry := (A * (nat * N))%type.
  Definition e_val (e : entry) := fst e.
  Definition e_off (e : entry) := fst (snd e).
  Definition e_id (e : entry) := snd (snd e).
  Definition mk (c : rid_config) (frag : N) (e : entry) : orow A :=
    {| o_val := e_val e; o_id := if c_with_id c then CVal (e_id e) else NoCol;
       o_addr := if c_with_addr c then CVal (new_from_parts frag (N.of_nat (e_off e))) else NoCol |}.

  Lemma zip_gen : forall (es pre : list entry) (b1 b2 : bool) (f g : entry -> N),
    map (fun '(i, a) => {| o_val := a;
          o_id := match (if b1 then Some (map f (pre ++ es)) else None) with
                  | Some l => match nth_error l i with Some v => CVal v | None => CNull end | None => NoCol end;
          o_addr := match (if b2 then Some (map g (pre ++ es)) else None) with
                  | Some l => match nth_error l i with Some v => CVal v | None => CNull end | None => NoCol end |})
      (combine (seq (length pre) (length es)) (map e_val es)) =
    map (fun e => {| o_val := e_val e; o_id := if b1 then CVal (f e) else NoCol; o_addr := if b2 then CVal (g e) else NoCol |}) es.
  Proof.
    induction es as [|e es IH]; intros pre b1 b2 f g; auto.
    cbn [length seq map combine]. f_equal.
    - f_equal.
      + destruct b1; auto. rewrite nth_error_map, nth_error_app2, Nat.sub_diag by lia. reflexivity.
      + destruct b2; auto. rewrite nth_error_map, nth_error_app2, Nat.sub_diag by lia. reflexivity.
    - specialize (IH (pre ++ [e]) b1 b2 f g). rewrite app_length in IH. cbn [length] in IH. rewrite Nat.add_1_r in IH.
      rewrite <- app_assoc in IH. exact IH.
  Qed.

  Lemma zip_cells_spec : forall (es : list entry) (b1 b2 : bool) (f g : entry -> N),
    zip_cells (map e_val es) (if b1 then Some (map f es) else None) (if b2 then Some (map g es) else None) =
    map (fun e => {| o_val := e_val e; o_id := if b1 then CVal (f e) else NoCol; o_addr := if b2 then CVal (g e) else NoCol |}) es.
  Proof. intros. unfold zip_cells. rewrite map_length. apply (zip_gen es [] b1 b2 f g). Qed.

  Lemma filter_mask_map : forall {B} (f : entry -> B) (k : entry -> bool) es,
    filter_mask (map f es) (map k es) = map f (filter k es).
  Proof.
    intros B f k es. unfold filter_mask. induction es as [|e es IH]; auto. cbn [map combine filter snd].
    destruct (k e); cbn [map fst]; [f_equal|]; auto.
  Qed.

  Definition out_rows (c : rid_config) (frag : N) (es : list entry) : list (orow A) :=
    map (mk c frag) (filter (fun e => negb (deleted c (e_off e))) es).

  Lemma nulls_spec : forall c frag (es : list entry), c_with_id c || c_with_addr c = true ->
    filter marked_live (deletions_as_nulls (map (mk c frag) es) (map (fun e => negb (deleted c (e_off e))) es)) = out_rows c frag es.
  Proof.
    intros c frag es Hw. unfold deletions_as_nulls, out_rows.
    destruct (forallb negb (map (fun e => negb (deleted c (e_off e))) es)) eqn:Eall.
    - cbn [filter]. rewrite (filter_all_false (fun e => negb (deleted c (e_off e)))); auto. intros e He.
      rewrite forallb_forall in Eall. specialize (Eall (negb (deleted c (e_off e)))).
      rewrite negb_involutive in Eall. rewrite Eall; auto. apply in_map_iff. eauto.
    - clear Eall. induction es as [|e es IH]; auto. cbn [map combine filter].
      destruct (negb (deleted c (e_off e))) eqn:Ek.
      + cbn [map filter].
        replace (marked_live (mk c frag e)) with true; [f_equal; exact IH|].
        unfold marked_live, mk. cbn. destruct (c_with_id c), (c_with_addr c); auto.
      + match goal with |- context [marked_live ?r] => replace (marked_live r) with false end; [exact IH|].
        unfold marked_live, mk. cbn. destruct (c_with_id c), (c_with_addr c); auto; discriminate.
  Qed.

  Lemma apply_spec : forall (es : list entry) off frag c p',
    (frag < two32)%N -> (forall e, In e es -> (N.of_nat (e_off e) < two32)%N) ->
    p_slice (c_params c) off (length es) = Some p' -> to_offsets p' = Some (map e_off es) ->
    match c_seq c with
    | Some q => slice_ids q off (length es) = Ok (map e_id es)
    | None => forall e, In e es -> e_id e = new_from_parts frag (N.of_nat (e_off e))
    end ->
    exists rows, apply_row_id_and_deletes (map e_val es) off frag c = Ok rows /\
      (c_null c = false -> rows = out_rows c frag es) /\
      (c_with_id c || c_with_addr c = true -> filter marked_live rows = out_rows c frag es).
  Proof.
    intros es off frag c p' Hf Ho Hs Hoff Hids. unfold apply_row_id_and_deletes.
    rewrite map_length, Hs, Hoff, map_map.
    set (g := fun e => new_from_parts frag (N.of_nat (e_off e))).
    change (map (fun x => new_from_parts frag (N.of_nat (e_off x))) es) with (map g es).
    set (del := match c_dv c with Some NoDel => None | x => x end).
    set (hd := match del with Some _ => true | None => false end).
    set (fetch := c_with_addr c || (c_with_id c && match c_seq c with None => true | _ => false end) || hd).
    assert (Ea : (if fetch then Ok (Some (map g es)) else Ok None) = Ok (if fetch then Some (map g es) else None))
      by (destruct fetch; auto).
    rewrite Ea. clear Ea.
    assert (Ei : (if c_with_id c then match c_seq c with
                   | Some q => match slice_ids q off (length es) with Ok l => Ok (Some l) | Err => Err | Panic => Panic end
                   | None => Ok (if fetch then Some (map g es) else None) end else Ok None) =
                 Ok (if c_with_id c then Some (map e_id es) else None)).
    { destruct (c_with_id c) eqn:Ew; auto. destruct (c_seq c) as [q|].
      - now rewrite Hids.
      - unfold fetch. rewrite orb_true_r. cbn. do 2 f_equal. apply map_ext_in. intros e He. symmetry. apply Hids, He. }
    rewrite Ei. clear Ei.
    replace (match (if c_with_id c then Some (map e_id es) else None) with Some l => negb (length l =? length es) | None => false end)
      with false by (destruct (c_with_id c); auto; rewrite map_length, Nat.eqb_refl; auto).
    replace (c_with_addr c && match (if fetch then Some (map g es) else None) with Some l => negb (length l =? length es) | None => true end)
      with false.
    2:{ unfold fetch. destruct (c_with_addr c); auto. cbn. now rewrite map_length, Nat.eqb_refl. }
    cbn [orb].
    assert (Ez : zip_cells (map e_val es) (if c_with_id c then Some (map e_id es) else None)
              (if c_with_addr c then (if fetch then Some (map g es) else None) else None) = map (mk c frag) es).
    { replace (if c_with_addr c then (if fetch then Some (map g es) else None) else None)
        with (if c_with_addr c then Some (map g es) else None) by (unfold fetch; destruct (c_with_addr c); auto).
      apply zip_cells_spec. }
    rewrite Ez. clear Ez.
    (* the mask *)
    assert (Em : match del, (if fetch then Some (map g es) else None) with
                 | Some d, Some a => dv_build_predicate d a | _, _ => None end =
                 match del with Some _ => Some (map (fun e => negb (deleted c (e_off e))) es) | None => None end).
    { unfold fetch, hd. unfold del. destruct (c_dv c) as [d|] eqn:Ed; [|destruct (_ || _); reflexivity].
      unfold deleted. rewrite Ed.
      destruct d as [|s|b]; [destruct (_ || _); reflexivity| |]; rewrite orb_true_r; cbn [dv_build_predicate dv_contains]; rewrite map_map;
        f_equal; apply map_ext_in; intros e He; unfold g; do 2 f_equal;
        destruct (address_roundtrip frag (N.of_nat (e_off e)) Hf (Ho e He)) as [_ [_ Hr]]; exact Hr. }
    rewrite Em. clear Em.
    assert (Hnone : del = None -> forall o, deleted c o = false).
    { unfold del, deleted. destruct (c_dv c) as [[|s|b]|]; try discriminate; auto. }
    assert (Hlive' : forall e, marked_live (mk c frag e) = true).
    { intros e. unfold marked_live, mk. cbn. destruct (c_with_id c), (c_with_addr c); auto. }
    assert (Hfl : filter marked_live (out_rows c frag es) = out_rows c frag es).
    { apply filter_all_true. intros r Hr. unfold out_rows in Hr. apply in_map_iff in Hr. destruct Hr as [e [<- _]]. auto. }
    destruct del as [d|] eqn:Edel.
    - destruct (c_null c) eqn:En.
      + eexists. split; [reflexivity|]. split; [discriminate|]. intros Hw.
        apply nulls_spec; auto.
      + eexists. split; [reflexivity|]. rewrite filter_mask_map. fold (out_rows c frag es). auto.
    - eexists. split; [reflexivity|]. assert (out_rows c frag es = map (mk c frag) es) as E.
      { unfold out_rows. rewrite filter_all_true; auto. intros e _. now rewrite Hnone. }
      rewrite <- E. split; auto.
  Qed.

  (* all batches: [es] are the remaining entries of the request *)
  Lemma wrap_spec : forall (batches : list (list A)) off frag c (es : list entry) all,
    (frag < two32)%N -> (forall e, In e es -> (N.of_nat (e_off e) < two32)%N) ->
    concat batches = map e_val es -> skipn off all = es -> off <= length all ->
    (forall s n, s + n <= length all -> exists p', p_slice (c_params c) s n = Some p' /\
       to_offsets p' = Some (map e_off (firstn n (skipn s all)))) ->
    match c_seq c with
    | Some q => forall s n, s + n <= length all -> slice_ids q s n = Ok (map e_id (firstn n (skipn s all)))
    | None => forall e, In e all -> e_id e = new_from_parts frag (N.of_nat (e_off e))
    end ->
    exists rows, wrap_batches batches off frag c = Ok rows /\
      (c_null c = false -> rows = out_rows c frag es) /\
      (c_with_id c || c_with_addr c = true -> filter marked_live rows = out_rows c frag es).
  Proof.
    induction batches as [|b t IH]; intros off frag c es all Hf Ho Hc He Hle Hp Hq; cbn [wrap_batches].
    - destruct es; [|discriminate]. exists []. auto.
    - cbn [concat] in Hc.
      assert (Hlen : length es = length b + length (concat t)) by (rewrite <- app_length, Hc, map_length; auto).
      assert (Hall : length all = off + length es) by (rewrite <- He, skipn_length; lia).
      set (es1 := firstn (length b) es). set (es2 := skipn (length b) es).
      assert (Hsplit : es = es1 ++ es2) by (symmetry; apply firstn_skipn).
      assert (Hl1 : length es1 = length b) by (unfold es1; rewrite firstn_length; lia).
      assert (Hb : b = map e_val es1 /\ concat t = map e_val es2).
      { rewrite Hsplit, map_app in Hc. assert (length b = length (map e_val es1)) as E by (rewrite map_length; lia).
        clearbody es1 es2. clear - Hc E. revert b Hc E. generalize (map e_val es1). induction l as [|x l IHl]; intros [|y b] Hc E; simpl in *; try discriminate; auto.
        injection Hc as -> Hc. destruct (IHl b Hc ltac:(lia)) as [-> ->]. auto. }
      destruct Hb as [Hb1 Hb2].
      destruct (Hp off (length b) ltac:(lia)) as [p' [P1 P2]]. rewrite He in P2. fold es1 in P2.
      destruct (apply_spec es1 off frag c p') as [r1 [R1 [R2 R3]]]; auto.
      + intros e H. apply Ho. rewrite Hsplit. apply in_app_iff. auto.
      + now rewrite Hl1.
      + destruct (c_seq c) as [q|].
        * rewrite Hl1. specialize (Hq off (length b) ltac:(lia)). rewrite He in Hq. exact Hq.
        * intros e H. apply Hq. rewrite <- (firstn_skipn off all), He, Hsplit, !in_app_iff. auto.
      + destruct (IH (off + length b) frag c es2 all) as [r2 [S1 [S2 S3]]]; auto.
        * intros e H. apply Ho. rewrite Hsplit. apply in_app_iff. auto.
        * rewrite <- skipn_skipn', He. reflexivity.
        * lia.
        * exists (r1 ++ r2). rewrite Hb1 at 1. rewrite R1, S1. split; auto.
          assert (Eo : out_rows c frag es = out_rows c frag es1 ++ out_rows c frag es2).
          { unfold out_rows. rewrite Hsplit, filter_app, map_app. reflexivity. }
          rewrite Eo. split; [intros; now rewrite R2, S2|intros; now rewrite filter_app, R3, S3].
  Qed.
End Entries.

(* the rows a request should return *)
Definition expected_rows {A} (c : rid_config) (frag : N) (ids : option (list N)) (offs : list nat) (vals : list A) : list (orow A) :=
  map (fun '(o, a) => expected c frag ids a o) (filter (fun '(o, _) => negb (deleted c o)) (combine offs vals)).

(* the positions of the request are the physical offsets 0, 1, 2, ... *)
Definition is_prefix (p : params) : Prop :=
  match p with PFull | PTo _ => True | PRange a _ => a = 0 | PFrom s => s = 0 | PIdx l => l = seq 0 (length l) end.

Lemma combine_map_fst : forall {X Y} (l : list X) (f : X -> Y), combine (map f l) l = map (fun x => (f x, x)) l.
Proof. induction l; simpl; intros; f_equal; auto. Qed.
Lemma map_fst_combine : forall {X Y} (l : list X) (m : list Y), length l = length m -> map fst (combine l m) = l.
Proof. induction l; intros [|y m] H; simpl in *; try discriminate; f_equal; auto. Qed.
Lemma map_snd_combine : forall {X Y} (l : list X) (m : list Y), length l = length m -> map snd (combine l m) = m.
Proof. induction l; intros [|y m] H; simpl in *; try discriminate; f_equal; auto. Qed.

Theorem read_spec : forall {A} (batches : list (list A)) frag c total ids,
  let offs := to_offsets_total (c_params c) total in
  (frag < two32)%N -> (N.of_nat total < two32)%N -> (forall a b, c_params c = PRange a b -> a <= b) ->
  (forall o, In o offs -> o < total) ->
  length (concat batches) = length offs ->
  match c_seq c, ids with
  | None, None => True
  | Some q, Some l => seq_wf q /\ seq_iter q = l /\ length l = total /\ is_prefix (c_params c)
  | _, _ => False
  end ->
  exists rows, wrap_batches batches 0 frag c = Ok rows /\
    (c_null c = false -> rows = expected_rows c frag ids offs (concat batches)) /\
    (c_with_id c || c_with_addr c = true -> filter marked_live rows = expected_rows c frag ids offs (concat batches)).
Proof.
  intros A batches frag c total ids offs Hf Ht Hr Hin Hlen Hseq.
  set (idf := fun o => match ids with Some l => nth o l 0%N | None => new_from_parts frag (N.of_nat o) end).
  set (all := map (fun '(o, a) => (a, (o, idf o))) (combine offs (concat batches)) : list entry).
  assert (Hal : length all = length offs) by (unfold all; rewrite map_length, combine_length; lia).
  assert (Hoffs : map e_off all = offs).
  { unfold all. rewrite map_map. rewrite (map_ext _ fst) by (intros [? ?]; reflexivity). now apply map_fst_combine. }
  assert (Hvals : map e_val all = concat batches).
  { unfold all. rewrite map_map. rewrite (map_ext _ snd) by (intros [? ?]; reflexivity). now apply map_snd_combine. }
  assert (Hidall : map e_id all = map idf offs).
  { rewrite <- Hoffs. unfold all. rewrite !map_map. apply map_ext. intros [? ?]. reflexivity. }
  assert (Hinall : forall e, In e all -> e_off e < total).
  { intros e He. apply Hin. rewrite <- Hoffs. now apply in_map. }
  destruct (wrap_spec batches 0 frag c all all) as [rows [R1 [R2 R3]]]; auto.
  - intros e He. specialize (Hinall e He). lia.
  - lia.
  - intros s n Hsn. destruct (slice_then_expand (c_params c) total s n Hr) as [p' [P1 P2]]; [fold offs; lia|].
    exists p'. split; auto. rewrite P2. fold offs. rewrite <- Hoffs. rewrite skipn_map, firstn_map. reflexivity.
  - destruct (c_seq c) as [q|], ids as [l|]; try contradiction.
    + destruct Hseq as [W [E [El Hpre]]]. intros s n Hsn.
      assert (Hofs : offs = seq 0 (length offs)).
      { unfold offs in *. destruct (c_params c); cbn [to_offsets_total is_prefix] in *; unfold rng; try subst a; try subst s0;
          rewrite ?seq_length; auto. }
      assert (length offs <= total).
      { destruct (length offs) as [|k] eqn:Ek; [lia|].
        assert (In k offs) as Hk by (rewrite Hofs; apply in_seq; lia). specialize (Hin k Hk). lia. }
      subst l. rewrite slice_ids_ok; [f_equal|exact W|lia]. rewrite <- firstn_map, <- skipn_map, Hidall, Hofs.
      rewrite skipn_map, firstn_map.
      rewrite (seq_firstn_skipn (length offs) 0 s n) by lia. cbn [plus].
      unfold idf. clear - Hsn Hal H El. revert s Hsn. induction n; intros s Hsn; auto.
      cbn [seq map firstn]. rewrite <- (IHn (S s)) by lia.
      destruct (skipn s (seq_iter q)) as [|x r] eqn:Es.
      * apply (f_equal (@length N)) in Es. rewrite skipn_length in Es. cbn in Es. lia.
      * f_equal.
        -- rewrite <- (firstn_skipn s (seq_iter q)) at 1. rewrite Es, app_nth2; rewrite firstn_length; [|lia].
           replace (s - Nat.min s (length (seq_iter q))) with 0 by lia. reflexivity.
        -- replace (S s) with (s + 1) by lia. rewrite <- skipn_skipn', Es. reflexivity.
    + intros e He. unfold all in He. apply in_map_iff in He. destruct He as [[o a] [<- _]]. reflexivity.
  - exists rows. split; auto.
    assert (Eo : out_rows c frag all = expected_rows c frag ids offs (concat batches)).
    { unfold out_rows, expected_rows, all. 
      assert (Hc : forall o a, In (o, a) (combine offs (concat batches)) -> o < total) by (intros o a H; apply Hin; eapply in_combine_l; eauto).
      revert Hc. generalize (combine offs (concat batches)). induction l as [|[o a] l IHl]; intros Hc; auto.
      cbn [map filter]. change (e_off (a, (o, idf o))) with o.
      assert (IH' := IHl (fun o a H => Hc o a (or_intror H))).
      destruct (negb (deleted c o)); cbn [map]; [f_equal|]; auto.
      unfold mk, expected. cbn. specialize (Hc o a (or_introl eq_refl)). f_equal.
      - destruct (c_with_id c); auto. unfold idf. destruct ids as [l'|].
        + destruct (c_seq c); [|contradiction]. destruct Hseq as [_ [_ [El _]]].
          rewrite (nth_error_nth' l' 0%N) by lia. reflexivity.
        + f_equal. apply new_from_parts_add; lia.
      - destruct (c_with_addr c); auto. f_equal. apply new_from_parts_add; lia. }
    rewrite <- Eo. auto.
Qed.

(* with stable row ids a read that does not start at the first row returns the
   ids of other rows *)
Theorem stable_ids_range_refuted : exists (q : rowseq) (c : rid_config) rows,
  seq_wf q /\ seq_iter q = [100; 101; 102; 103]%N /\ c_seq c = Some q /\ c_params c = PRange 2 4 /\ c_with_id c = true /\
  wrap_batches [[7; 8]] 0 5 c = Ok rows /\ rows <> expected_rows c 5 (Some (seq_iter q)) [2; 3] [7; 8] /\
  map o_id rows = [CVal 100; CVal 101]%N.
Proof.
  exists [Range 100 104], {| c_params := PRange 2 4; c_with_id := true; c_with_addr := false; c_dv := None;
                             c_seq := Some [Range 100 104]; c_null := false |}.
  eexists. split; [constructor; [vm_compute; intuition congruence|constructor]|].
  split; [reflexivity|]. split; [reflexivity|]. split; [reflexivity|]. split; [reflexivity|].
  split; [vm_compute; reflexivity|]. split; [vm_compute; discriminate|reflexivity].
Qed.
Theorem stable_ids_take_refuted : exists (q : rowseq) (c : rid_config) rows,
  seq_wf q /\ seq_iter q = [100; 101; 102; 103]%N /\ c_seq c = Some q /\ c_params c = PIdx [3; 1] /\ c_with_id c = true /\
  wrap_batches [[8; 6]] 0 5 c = Ok rows /\ rows <> expected_rows c 5 (Some (seq_iter q)) [3; 1] [8; 6].
Proof.
  exists [Range 100 104], {| c_params := PIdx [3; 1]; c_with_id := true; c_with_addr := false; c_dv := None;
                             c_seq := Some [Range 100 104]; c_null := false |}.
  eexists. split; [constructor; [vm_compute; intuition congruence|constructor]|].
  split; [reflexivity|]. split; [reflexivity|]. split; [reflexivity|]. split; [reflexivity|].
  split; [vm_compute; reflexivity|]. vm_compute; discriminate.
Qed.

Example read_ex : wrap_batches [[7; 8]; [9]] 0 1 {| c_params := PIdx [4; 0; 2]; c_with_id := true; c_with_addr := true;
    c_dv := Some (DSet [0%N]); c_seq := None; c_null := false |} =
  Ok [ {| o_val := 7; o_id := CVal (two32 + 4); o_addr := CVal (two32 + 4) |};
       {| o_val := 9; o_id := CVal (two32 + 2); o_addr := CVal (two32 + 2) |} ].
Proof. vm_compute. reflexivity. Qed.


Theorem read_by_address : forall {A} (batches : list (list A)) frag c total,
  let offs := to_offsets_total (c_params c) total in
  (frag < two32)%N -> (N.of_nat total < two32)%N -> (forall a b, c_params c = PRange a b -> a <= b) ->
  (forall o, In o offs -> o < total) -> length (concat batches) = length offs -> c_seq c = None ->
  exists rows, wrap_batches batches 0 frag c = Ok rows /\
    (c_null c = false -> rows = expected_rows c frag None offs (concat batches)) /\
    (c_with_id c || c_with_addr c = true -> filter marked_live rows = expected_rows c frag None offs (concat batches)).
Proof. intros. apply read_spec; auto. now rewrite H4. Qed.

Theorem read_stable_prefix : forall {A} (batches : list (list A)) frag c total q,
  let offs := to_offsets_total (c_params c) total in
  (frag < two32)%N -> (N.of_nat total < two32)%N -> (forall a b, c_params c = PRange a b -> a <= b) ->
  (forall o, In o offs -> o < total) -> length (concat batches) = length offs ->
  c_seq c = Some q -> seq_wf q -> length (seq_iter q) = total -> is_prefix (c_params c) ->
  exists rows, wrap_batches batches 0 frag c = Ok rows /\
    (c_null c = false -> rows = expected_rows c frag (Some (seq_iter q)) offs (concat batches)) /\
    (c_with_id c || c_with_addr c = true -> filter marked_live rows = expected_rows c frag (Some (seq_iter q)) offs (concat batches)).
Proof. intros. apply read_spec; auto. rewrite H4. auto. Qed.

Example read_stable_ex : wrap_batches [[7; 8]; [9]] 0 1 {| c_params := PFull; c_with_id := true; c_with_addr := true;
    c_dv := Some (DSet [1%N]); c_seq := Some [Range 100 103]; c_null := false |} =
  Ok [ {| o_val := 7; o_id := CVal 100; o_addr := CVal two32 |};
       {| o_val := 9; o_id := CVal 102; o_addr := CVal (two32 + 2) |} ].
Proof. vm_compute. reflexivity. Qed.
