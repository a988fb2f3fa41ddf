(* C27: taking rows by address and by offset. *)
From Coq Require Import List Arith NArith Bool Lia Permutation.
From Coq Require Import ZifyBool ZifyN ZifyNat.
From Verif Require Import Lib AMap RowIdsModel RowIdsSpec SerdeModel ReadParamsModel ReadParamsProofs TreeMapModel TreeMapProofs
  DeletionModel DeletionSpec DeletionProofs StreamModel StreamProofs TakeModel.
Import ListNotations.
Local Open Scope N_scope.

(* ---- what a take should return ---- *)
Definition opt_list {B} (o : option B) : list B := match o with Some x => [x] | None => [] end.
Definition deleted_in {A} (f : frag A) (o : N) : bool :=
  match fr_dv f with Some d => memN o (dv_items d) | None => false end.
(* the surviving row at physical offset o of a fragment *)
Definition row_of {A} (f : frag A) (o : N) : option A :=
  if deleted_in f o then None else nth_error (fr_rows f) (N.to_nat o).
(* the surviving row with address a *)
Definition row_at {A} (fs : list (frag A)) (a : N) : option A :=
  match find (fun f => fr_id f =? a / two32) fs with
  | Some f => row_of f (a mod two32)
  | None => None
  end.
(* all surviving rows of the dataset, in dataset order *)
Definition live_rows {A} (fs : list (frag A)) : list A :=
  flat_map (fun f => flat_map (fun o => opt_list (row_of f o)) (nrange 0 (length (fr_rows f)))) fs.

Definition frag_wf {A} (f : frag A) : Prop :=
  fr_id f < two32 /\ N.of_nat (length (fr_rows f)) < two32 /\
  match fr_dv f with Some d => dv_wf d /\ (forall x, dv_has d x -> x < N.of_nat (length (fr_rows f))) | None => True end.
Definition ds_wf {A} (fs : list (frag A)) : Prop := NoDup (map fr_id fs) /\ forall f, In f fs -> frag_wf f.
(* the address points into the physical rows of a fragment of the dataset *)
Definition addr_ok {A} (fs : list (frag A)) (a : N) : Prop :=
  exists f, In f fs /\ fr_id f = a / two32 /\ a mod two32 < N.of_nat (length (fr_rows f)).

(* ---- reading one fragment ---- *)
Definition frag_row {A} (f : frag A) (w : bool) (o : N) : list (orow A) :=
  map (fun a => {| o_val := a; o_id := NoCol; o_addr := if w then CVal (fr_id f * two32 + o) else NoCol |}) (opt_list (row_of f o)).

Lemma two32_pos : two32 <> 0. Proof. discriminate. Qed.

Lemma dv_contains_mem : forall d x, dv_contains d x = memN x (dv_items d).
Proof. intros [| |] x; reflexivity. Qed.

Lemma pick_rows_nil : forall {A} (rows : list A), pick_rows rows [] = [].
Proof. reflexivity. Qed.

Lemma frag_read_spec : forall {A} batching (f : frag A) p w, (forall l, concat (batching l) = l) -> frag_wf f ->
  (forall a b, p = PRange a b -> (a <= b)%nat) ->
  valid_given_len p (length (fr_rows f)) = true ->
  let offs := to_offsets_total p (length (fr_rows f)) in
  (forall o, In o offs -> (o < length (fr_rows f))%nat) ->
  frag_read batching f p w = Ok (flat_map (fun o => frag_row f w (N.of_nat o)) offs).
Proof.
  intros A batching f p w Hb [Wid [Wlen Wdv]] Hp Hv offs Ho. unfold frag_read. rewrite Hv. cbn [negb].
  fold offs. set (c := {| c_params := p; c_with_id := false; c_with_addr := w; c_dv := fr_dv f; c_seq := None; c_null := false |}).
  assert (Hlen : length (pick_rows (fr_rows f) offs) = length offs).
  { clearbody offs. clear - Ho. induction offs as [|o l IH]; auto. cbn [pick_rows flat_map]. rewrite app_length. unfold pick_rows in IH.
    rewrite IH by (intros; apply Ho; now right).
    destruct (nth_error (fr_rows f) o) eqn:E; cbn [length]; [lia|]. apply nth_error_None in E. specialize (Ho o (or_introl eq_refl)). lia. }
  destruct (read_by_address (batching (pick_rows (fr_rows f) offs)) (fr_id f) c (length (fr_rows f))) as [rows [R1 [R2 _]]]; auto.
  - rewrite Hb. exact Hlen.
  - rewrite R1. f_equal. rewrite R2 by reflexivity. change (to_offsets_total (c_params c) (length (fr_rows f))) with offs. rewrite Hb. unfold expected_rows.
    clear R1 R2 Hlen Hv. clearbody offs. induction offs as [|o l IH]; auto.
    cbn [pick_rows flat_map]. assert (o < length (fr_rows f))%nat by (apply Ho; now left).
    destruct (nth_error (fr_rows f) o) as [a|] eqn:E; [|apply nth_error_None in E; lia].
    cbn [app combine filter map]. unfold pick_rows in IH. 
    assert (IH' := IH (fun o' h => Ho o' (or_intror h))).
    assert (Hd : deleted c o = deleted_in f (N.of_nat o)).
    { unfold deleted, deleted_in. cbn [c_dv c]. destruct (fr_dv f); auto. apply dv_contains_mem. }
    rewrite Hd. unfold frag_row at 1, row_of. rewrite Nat2N.id, E.
    destruct (deleted_in f (N.of_nat o)); cbn [negb opt_list map app]; auto.
    f_equal; auto.
Qed.

Lemma in_range_pick : forall {A} (f : frag A) w offs,
  flat_map (fun o => frag_row f w (N.of_nat o)) (map N.to_nat offs) = flat_map (frag_row f w) offs.
Proof. intros. induction offs; auto. cbn [map flat_map]. now rewrite IHoffs, N2Nat.id. Qed.

Lemma rng_nrange : forall a n, rng (N.to_nat a) (N.to_nat a + n) = map N.to_nat (nrange a n).
Proof.
  intros a n. unfold rng. replace (N.to_nat a + n - N.to_nat a)%nat with n by lia. revert a. induction n; intros a; auto.
  cbn [seq nrange map]. f_equal. rewrite <- IHn. f_equal. lia.
Qed.

Lemma contiguous_from_nrange : forall l x, contiguous_from x l = true -> x :: l = nrange x (Datatypes.S (length l)).
Proof.
  induction l as [|y t IH]; intros x H; auto. cbn [contiguous_from] in H.
  destruct (y =? x + 1) eqn:E; cbn [negb] in H; [|discriminate]. apply N.eqb_eq in E. subst y.
  apply IH in H. cbn [length]. change (nrange x (Datatypes.S (Datatypes.S (length t)))) with (x :: nrange (x + 1) (Datatypes.S (length t))).
  now rewrite <- H.
Qed.

Lemma last_nrange : forall n a d, last (nrange a (Datatypes.S n)) d = a + N.of_nat n.
Proof.
  induction n; intros a d; [cbn; lia|]. change (nrange a (Datatypes.S (Datatypes.S n))) with (a :: nrange (a + 1) (Datatypes.S n)).
  change (last (a :: nrange (a + 1) (Datatypes.S n)) d) with (last (nrange (a + 1) (Datatypes.S n)) d). rewrite IHn. lia.
Qed.

Lemma frag_range_spec : forall {A} batching (f : frag A) a n w, (forall l, concat (batching l) = l) -> frag_wf f ->
  (a + N.of_nat n < N.of_nat (length (fr_rows f)))%N ->
  frag_read batching f (PRange (N.to_nat a) (N.to_nat (a + N.of_nat n) + 1)) w = Ok (flat_map (frag_row f w) (nrange a (Datatypes.S n))).
Proof.
  intros A batching f a n w Hb Hw Hl.
  replace (N.to_nat (a + N.of_nat n) + 1)%nat with (N.to_nat a + Datatypes.S n)%nat by lia.
  rewrite frag_read_spec; auto.
  - cbn [to_offsets_total]. rewrite rng_nrange. now rewrite in_range_pick.
  - intros x y E. injection E as <- <-. lia.
  - cbn [valid_given_len]. apply andb_true_intro. rewrite Nat.ltb_lt, Nat.leb_le. lia.
  - cbn [to_offsets_total]. unfold rng. intros o Ho. apply in_seq in Ho. lia.
Qed.

Lemma frag_take_rows_spec : forall {A} batching (f : frag A) offs w, (forall l, concat (batching l) = l) -> frag_wf f ->
  (forall o, In o offs -> o < N.of_nat (length (fr_rows f))) ->
  frag_take_rows batching f offs w = Ok (flat_map (frag_row f w) offs).
Proof.
  intros A batching f offs w Hb Hw Ho. unfold frag_take_rows.
  destruct ((1 <? length offs)%nat && row_ids_contiguous offs) eqn:E.
  - apply andb_true_iff in E as [_ E]. destruct offs as [|x t]; [discriminate|]. cbn [row_ids_contiguous hd] in *.
    apply contiguous_from_nrange in E. rewrite E in *. rewrite last_nrange. apply frag_range_spec; auto.
    assert (In (x + N.of_nat (length t)) (nrange x (Datatypes.S (length t)))) by (apply nrange_In; lia). now apply Ho.
  - rewrite frag_read_spec; auto.
    + cbn [to_offsets_total]. now rewrite in_range_pick.
    + discriminate.
    + cbn [valid_given_len]. apply forallb_forall. intros o H. apply in_map_iff in H as [o' [<- H]]. apply Ho in H. apply Nat.ltb_lt. lia.
    + cbn [to_offsets_total]. intros o H. apply in_map_iff in H as [o' [<- H]]. apply Ho in H. lia.
Qed.

Lemma frag_row_vals : forall {A} (f : frag A) w offs,
  map o_val (flat_map (frag_row f w) offs) = flat_map (fun o => opt_list (row_of f o)) offs.
Proof.
  intros. induction offs; auto. cbn [flat_map]. rewrite map_app, IHoffs. f_equal. unfold frag_row. rewrite map_map. cbn. apply map_id.
Qed.

(* ---- addresses ---- *)
Lemma find_id : forall {A} (fs : list (frag A)) f, NoDup (map fr_id fs) -> In f fs -> find (fun g => fr_id g =? fr_id f) fs = Some f.
Proof.
  intros A fs f Hn Hi. induction fs as [|g t IH]; [destruct Hi|]. cbn [find map] in *. inversion Hn; subst.
  destruct Hi as [->|Hi]; [now rewrite N.eqb_refl|].
  destruct (fr_id g =? fr_id f) eqn:E; auto. apply N.eqb_eq in E. exfalso. apply H1. rewrite E. now apply in_map.
Qed.
Lemma shiftr32 : forall a, N.shiftr a 32 = a / two32.
Proof. intros. now rewrite N.shiftr_div_pow2. Qed.

Section Addr.
  Context {A : Type} (fs : list (frag A)).
  Hypothesis W : ds_wf fs.

  Lemma addr_bounds : forall a, addr_ok fs a -> a + 1 < two64 /\ a / two32 < two32.
  Proof.
    intros a [f [Hf [Hid Ho]]]. destruct W as [_ W2]. destruct (W2 f Hf) as [W3 [W4 _]].
    rewrite <- Hid. split; auto. rewrite (N.div_mod a two32 two32_pos). rewrite <- Hid. unfold two32, two64 in *. lia.
  Qed.
  Lemma addr_frag : forall a f, In f fs -> fr_id f = a / two32 -> row_at fs a = row_of f (a mod two32).
  Proof. intros a f Hf Hid. unfold row_at. rewrite <- Hid, find_id; auto. apply W. Qed.
  Lemma addr_get : forall a, addr_ok fs a -> exists f, get_fragment fs (a / two32) = Some f /\ In f fs /\ fr_id f = a / two32 /\
    a mod two32 < N.of_nat (length (fr_rows f)).
  Proof. intros a [f [Hf [Hid Ho]]]. exists f. split; auto. unfold get_fragment. rewrite <- Hid. apply find_id; auto. apply W. Qed.
  Lemma same_frag : forall f g, In f fs -> In g fs -> fr_id f = fr_id g -> f = g.
  Proof. intros f g Hf Hg E. pose proof (find_id fs f (proj1 W) Hf). rewrite E, (find_id fs g (proj1 W) Hg) in H. now injection H. Qed.

  Variable batching : list A -> list (list A).
  Hypothesis Hb : forall l, concat (batching l) = l.

  (* contiguous requests *)
  Lemma check_contiguous : forall l last s ff, as_contiguous (check_loop ff last l s) = true ->
    last + 1 < two64 -> (forall a, In a l -> a + 1 < two64) ->
    as_contiguous s = true /\ l = nrange (last + 1) (length l) /\ (forall a, In a l -> a / two32 = ff).
  Proof.
    induction l as [|id t IH]; intros last s ff H Hl Ha; cbn [check_loop] in H.
    - repeat split; auto. intros a [].
    - apply IH in H as [H1 [H2 H3]]; [|apply Ha; now left|intros; apply Ha; now right].
      cbn [as_contiguous] in H1. apply andb_true_iff in H1 as [H1 Hff]. apply andb_true_iff in H1 as [H1 Hid].
      apply N.eqb_eq in Hid, Hff. rewrite N.mod_small in Hid by auto. subst id. rewrite shiftr32 in Hff.
      split; auto. cbn [length nrange]. split; [f_equal; auto|]. intros a [<-|Hi]; auto.
  Qed.

  Lemma take_contiguous : forall a0 t, Forall (addr_ok fs) (a0 :: t) -> as_contiguous (check_row_addrs (a0 :: t)) = true ->
    match get_fragment fs (N.shiftr a0 32) with
    | None => Err
    | Some f => ok_map (map o_val)
                  (frag_read batching f (PRange (N.to_nat (row_offset a0)) (N.to_nat (row_offset (last (a0 :: t) 0)) + 1)) false)
    end = Ok (flat_map (fun a => opt_list (row_at fs a)) (a0 :: t)).
  Proof.
    intros a0 t Hok Hc. rewrite Forall_forall in Hok. cbn [check_row_addrs] in Hc.
    apply check_contiguous in Hc as [_ [Ht Hff]].
    2:{ apply addr_bounds, Hok. now left. } 2:{ intros a Ha. apply addr_bounds, Hok. now right. }
    rewrite shiftr32 in *. destruct (addr_get a0 (Hok a0 (or_introl eq_refl))) as [f [-> [Hf [Hid Ho]]]].
    assert (Hlist : a0 :: t = nrange a0 (Datatypes.S (length t))) by (cbn [nrange]; f_equal; exact Ht).
    assert (Hlast : last (a0 :: t) 0 = a0 + N.of_nat (length t)) by (rewrite Hlist; apply last_nrange).
    assert (HlastIn : In (a0 + N.of_nat (length t)) (a0 :: t)) by (rewrite Hlist; apply nrange_In; lia).
    assert (Hsame : forall a, In a (a0 :: t) -> a / two32 = a0 / two32) by (intros a [<-|Ha]; auto).
    assert (Hoff : forall a, In a (a0 :: t) -> a mod two32 = a0 mod two32 + (a - a0)).
    { intros a Ha. pose proof (Hsame a Ha). rewrite Hlist in Ha. apply nrange_In in Ha.
      pose proof (N.div_mod a two32 two32_pos). pose proof (N.div_mod a0 two32 two32_pos). rewrite H in *. lia. }
    unfold row_offset. rewrite Hlast. rewrite (Hoff _ HlastIn).
    replace (a0 + N.of_nat (length t) - a0) with (N.of_nat (length t)) by lia.
    rewrite frag_range_spec; auto.
    - cbn [ok_map]. f_equal. rewrite frag_row_vals. rewrite Hlist.
      assert (G : forall n a o, (forall i, (i < n)%nat -> (a + N.of_nat i) / two32 = a0 / two32 /\ (a + N.of_nat i) mod two32 = o + N.of_nat i) ->
         flat_map (fun x => opt_list (row_of f x)) (nrange o n) = flat_map (fun x => opt_list (row_at fs x)) (nrange a n)).
      { induction n; intros a o Hn; auto. cbn [nrange flat_map]. f_equal.
        - destruct (Hn 0%nat ltac:(lia)) as [E1 E2]. cbn in E1, E2. rewrite N.add_0_r in *. rewrite (addr_frag a f); auto; [|congruence].
          now rewrite E2, N.add_0_r.
        - apply IHn. intros i Hi. destruct (Hn (Datatypes.S i) ltac:(lia)) as [E1 E2].
          replace (a + 1 + N.of_nat i) with (a + N.of_nat (Datatypes.S i)) by lia. split; auto. rewrite E2. lia. }
      apply G. intros i Hi. assert (In (a0 + N.of_nat i) (a0 :: t)) by (rewrite Hlist; apply nrange_In; lia).
      split; auto. rewrite Hoff by auto. lia.
    - apply W; auto.
    - destruct (addr_get _ (Hok _ HlastIn)) as [g [_ [Hg [Hgid Hgo]]]].
      assert (g = f) by (apply same_frag; auto; rewrite Hgid, Hid; auto). subst g. rewrite Hoff in Hgo by auto.
      replace (a0 + N.of_nat (length t) - a0) with (N.of_nat (length t)) in Hgo by lia. exact Hgo.
  Qed.

  (* sorted requests *)
  Lemma runs_spec : forall l, concat (map snd (runs l)) = l /\ (forall f r, In (f, r) (runs l) -> forall a, In a r -> a / two32 = f).
  Proof.
    induction l as [|x t [IH1 IH2]]; cbn [runs].
    - split; auto. intros f r [].
    - rewrite shiftr32. destruct (runs t) as [|[f r] rest] eqn:E.
      + cbn in IH1. subst t. split; auto. intros f r [Hi|[]] a Ha. injection Hi as <- <-. destruct Ha as [<-|[]]; auto.
      + destruct (f =? x / two32) eqn:Ef.
        * apply N.eqb_eq in Ef. subst f. split; [cbn in *; now f_equal|].
          intros g r' [Hi|Hi] a Ha; [injection Hi as <- <-; destruct Ha as [<-|Ha]; auto; apply (IH2 _ r); auto; now left|].
          apply (IH2 g r'); auto. now right.
        * split; [cbn in *; now f_equal|]. intros g r' [Hi|Hi] a Ha; [injection Hi as <- <-; destruct Ha as [<-|[]]; auto|].
          apply (IH2 g r'); auto.
  Qed.

  Lemma all_ok_map : forall {B C} (f : B -> outcome C) (g : B -> C) l, (forall x, In x l -> f x = Ok (g x)) -> all_ok (map f l) = Ok (map g l).
  Proof. intros B C f g l H. induction l; auto. cbn [map all_ok]. rewrite H by now left. rewrite IHl by (intros; apply H; now right). reflexivity. Qed.

  Lemma row_at_frag : forall f l, In f fs -> (forall a, In a l -> a / two32 = fr_id f) ->
    flat_map (fun o => opt_list (row_of f o)) (map row_offset l) = flat_map (fun a => opt_list (row_at fs a)) l.
  Proof.
    intros f l Hf Hl. induction l as [|a l IH]; auto. cbn [map flat_map]. rewrite IH by (intros; apply Hl; now right). f_equal.
    rewrite (addr_frag a f); auto. symmetry. apply Hl. now left.
  Qed.

  Lemma take_sorted_spec : forall l, Forall (addr_ok fs) l ->
    take_sorted batching fs l = Ok (flat_map (fun a => opt_list (row_at fs a)) l).
  Proof.
    intros l Hok. rewrite Forall_forall in Hok. unfold take_sorted. destruct (runs_spec l) as [R1 R2].
    set (g := fun p : N * list N => match get_fragment fs (fst p) with Some f => flat_map (frag_row f false) (map row_offset (snd p)) | None => [] end).
    assert (Hin : forall p, In p (runs l) -> forall a, In a (snd p) -> addr_ok fs a).
    { intros p Hp a Ha. apply Hok. rewrite <- R1. apply in_concat. exists (snd p). split; auto. apply in_map. exact Hp. }
    assert (Hne : forall l', forall p, In p (runs l') -> snd p <> []).
    { induction l' as [|x t IH]; [intros p []|]. cbn [runs]. destruct (runs t) as [|[f r] rest]; [intros p [<-|[]]; discriminate|].
      destruct (f =? N.shiftr x 32); intros p [<-|Hp]; try discriminate; apply IH; [now right|exact Hp]. }
    rewrite (all_ok_map _ g).
    - cbn [ok_map]. f_equal. rewrite <- R1 at 2. 
      assert (G : forall ps, (forall p, In p ps -> In p (runs l)) -> map o_val (concat (map g ps)) = flat_map (fun a => opt_list (row_at fs a)) (concat (map snd ps))).
      { induction ps as [|p ps IH]; intros Hps; auto. cbn [map concat]. rewrite map_app, flat_map_app, IH by (intros; apply Hps; now right). f_equal.
        assert (Hp := Hps p (or_introl eq_refl)). unfold g. destruct (snd p) as [|a0 r] eqn:Es; [exfalso; eapply Hne; eauto|].
        assert (Hfst : forall a, In a (a0 :: r) -> a / two32 = fst p).
        { intros a Ha. apply (R2 (fst p) (snd p)); [destruct p; auto|]. now rewrite Es. }
        destruct (addr_get a0) as [f [Hg [Hf [Hid _]]]]; [apply (Hin p Hp); rewrite Es; now left|].
        rewrite <- (Hfst a0) by now left. rewrite Hg. rewrite frag_row_vals. apply row_at_frag; auto.
        intros a Ha. rewrite Hfst by auto. rewrite Hid. symmetry. apply Hfst. now left. }
      apply G. auto.
    - intros [fid r] Hp. unfold g. cbn [fst snd]. destruct r as [|a0 r]; [exfalso; now apply (Hne _ _ Hp)|].
      assert (Hfst : forall a, In a (a0 :: r) -> a / two32 = fid) by (intros; now apply (R2 fid (a0 :: r))).
      destruct (addr_get a0) as [f [Hg [Hf [Hid _]]]]; [apply (Hin _ Hp); now left|].
      rewrite <- (Hfst a0) by now left. rewrite Hg. apply frag_take_rows_spec; [exact Hb|now apply W|].
      intros o Ho. apply in_map_iff in Ho as [a [<- Ha]]. unfold row_offset.
      destruct (addr_get a) as [f' [_ [Hf' [Hid' Ho']]]]; [now apply (Hin _ Hp)|].
      assert (f' = f) by (apply same_frag; auto; rewrite Hid', Hid; rewrite !Hfst; auto; now left). now subst f'.
  Qed.

  (* unsorted requests *)
  Lemma dedup_In : forall l x, In x (dedup_adj l) <-> In x l.
  Proof.
    induction l as [|y t IH]; intros x; [reflexivity|]. cbn [dedup_adj]. destruct t as [|z t']; [reflexivity|].
    destruct (y =? z) eqn:E.
    - apply N.eqb_eq in E. subst z. rewrite IH. split; [now right|]. intros [<-|H]; [now left|exact H].
    - cbn [In]. rewrite IH. cbn [In]. tauto.
  Qed.

  Lemma group_fold : forall l (m : amap (list N)) k,
    get k (fold_left group_step l m) =
    match map row_offset (filter (fun a => fragment_id a =? k) l) with
    | [] => get k m
    | r => Some (match get k m with Some x => x | None => [] end ++ r)
    end.
  Proof.
    induction l as [|a l IH]; intros m k; [reflexivity|]. cbn [fold_left]. rewrite IH. cbn [filter].
    unfold group_step. rewrite get_put. rewrite (N.eqb_sym (fragment_id a) k). destruct (k =? fragment_id a) eqn:E.
    - apply N.eqb_eq in E. subst k. cbn [map]. destruct (map row_offset (filter (fun a0 => fragment_id a0 =? fragment_id a) l)) eqn:El.
      + destruct (get (fragment_id a) m); reflexivity.
      + destruct (get (fragment_id a) m); [rewrite <- app_assoc|]; reflexivity.
    - reflexivity.
  Qed.

  Lemma match_frags_spec : forall gs (m : amap (list N)), NoDup (map fr_id gs) -> (forall f, In f gs -> fr_id f < two32) ->
    forall (f : frag A) l, In (f, l) (match_frags gs m) <-> In f gs /\ get (fr_id f) m = Some l.
  Proof.
    induction gs as [|g t IH]; intros m Hn Hs f l; cbn [match_frags].
    - split; [intros []|intros [[] _]].
    - cbn [map] in Hn. inversion Hn as [|? ? Hn1 Hn2]; subst. rewrite N.mod_small by (apply Hs; now left).
      assert (Hs' : forall f, In f t -> fr_id f < two32) by (intros; apply Hs; now right).
      destruct (get (fr_id g) m) as [x|] eqn:E.
      + cbn [In]. rewrite IH by auto. rewrite get_del. split.
        * intros [H|[H1 H2]]; [injection H as <- <-; auto|]. split; auto. destruct (fr_id f =? fr_id g); [discriminate|auto].
        * intros [[<-|H1] H2]; [left; congruence|]. right. split; auto.
          destruct (fr_id f =? fr_id g) eqn:Ef; auto. apply N.eqb_eq in Ef. exfalso. apply Hn1. rewrite <- Ef. now apply in_map.
      + rewrite IH by auto. split; [intros [H1 H2]; split; auto; now right|]. intros [[<-|H1] H2]; [congruence|auto].
  Qed.

  Lemma addr_position_spec : forall a (rows : list (orow A)),
    match addr_position a rows with
    | Some i => exists r, nth_error rows i = Some r /\ o_addr r = CVal a
    | None => forall r, In r rows -> o_addr r <> CVal a
    end.
  Proof.
    induction rows as [|r t IH]; cbn [addr_position]; [intros r []|].
    destruct (o_addr r) as [| |v] eqn:E.
    1,2: destruct (addr_position a t); cbn [omap]; [exact IH|intros r' [<-|H]; [congruence|now apply IH]].
    destruct (v =? a) eqn:Ev.
    - apply N.eqb_eq in Ev. subst v. exists r. auto.
    - apply N.eqb_neq in Ev. destruct (addr_position a t); cbn [omap]; [exact IH|intros r' [<-|H]; [congruence|now apply IH]].
  Qed.

  Lemma take_unsorted_spec : forall l, l <> [] -> Forall (addr_ok fs) l ->
    take_unsorted batching fs l = Ok (flat_map (fun a => opt_list (row_at fs a)) l).
  Proof.
    intros l Hne Hok. rewrite Forall_forall in Hok. unfold take_unsorted.
    set (s := dedup_adj (sort_list l)). assert (Hs : forall a, In a s <-> In a l) by (intros; unfold s; rewrite dedup_In; apply sort_In).
    set (parts := match_frags fs (group_by_frag s)).
    assert (Hfid : forall a, In a l -> fragment_id a = a / two32).
    { intros a Ha. apply fragment_id_small. pose proof (addr_bounds a (Hok a Ha)). lia. }
    assert (Hparts : forall f x, In (f, x) parts <-> In f fs /\ x <> [] /\ x = map row_offset (filter (fun a => fragment_id a =? fr_id f) s)).
    { intros f x. unfold parts. rewrite match_frags_spec; [|apply W|intros; now apply W]. unfold group_by_frag. rewrite group_fold.
      cbn [get app]. split.
      - intros [H1 H2]. split; auto. destruct (map row_offset (filter (fun a => fragment_id a =? fr_id f) s)); [discriminate|]. injection H2 as <-. split; auto. discriminate.
      - intros [H1 [H2 H3]]. split; auto. subst x. destruct (map row_offset (filter (fun a => fragment_id a =? fr_id f) s)); congruence. }
    assert (Hoffs : forall f x, In (f, x) parts -> forall o, In o x -> o < N.of_nat (length (fr_rows f)) /\ In (fr_id f * two32 + o) l).
    { intros f x Hp o Ho. apply Hparts in Hp as [Hf [_ ->]]. apply in_map_iff in Ho as [a [<- Ha]]. apply filter_In in Ha as [Ha Hk].
      apply N.eqb_eq in Hk. apply Hs in Ha. rewrite Hfid in Hk by auto. unfold row_offset.
      destruct (addr_get a (Hok a Ha)) as [g [_ [Hg [Hgid Hgo]]]]. assert (g = f) by (apply same_frag; auto; congruence). subst g.
      split; auto. rewrite <- Hk. rewrite N.mul_comm, <- N.div_mod; auto. exact two32_pos. }
    rewrite (all_ok_map _ (fun p => flat_map (frag_row (fst p) true) (snd p))).
    2:{ intros [f x] Hp. cbn [fst snd]. apply frag_take_rows_spec; [exact Hb| |].
        - apply Hparts in Hp. now apply W.
        - intros o Ho. now apply (Hoffs f x). }
    cbn [ok_bind].
    assert (Hpne : parts <> []).
    { destruct l as [|a l']; [congruence|]. destruct (addr_get a (Hok a (or_introl eq_refl))) as [f [_ [Hf [Hid _]]]].
      assert (Hin : In (row_offset a) (map row_offset (filter (fun b => fragment_id b =? fr_id f) s))).
      { apply in_map, filter_In. split; [apply Hs; now left|]. rewrite Hfid, Hid by now left. apply N.eqb_refl. }
      intros C. assert (In (f, map row_offset (filter (fun b => fragment_id b =? fr_id f) s)) parts).
      { apply Hparts. split; auto. split; auto. intros C'. rewrite C' in Hin. destruct Hin. }
      rewrite C in H. destruct H. }
    destruct (map (fun p => flat_map (frag_row (fst p) true) (snd p)) parts) as [|b0 bs] eqn:Eb.
    { exfalso. apply Hpne. destruct parts; [auto|discriminate]. }
    rewrite <- Eb. set (one := concat (map (fun p => flat_map (frag_row (fst p) true) (snd p)) parts)).
    assert (Hone : forall r, In r one -> exists a, o_addr r = CVal a /\ row_at fs a = Some (o_val r)).
    { intros r Hr. unfold one in Hr. apply in_concat in Hr as [x [Hx Hr]]. apply in_map_iff in Hx as [[f offs] [<- Hp]]. cbn [fst snd] in Hr.
      apply in_flat_map in Hr as [o [Ho Hr]]. unfold frag_row in Hr. apply in_map_iff in Hr as [v [<- Hv]]. cbn [o_addr o_val].
      exists (fr_id f * two32 + o). split; auto. destruct (Hoffs f offs Hp o Ho) as [Hb1 _]. apply Hparts in Hp as [Hf _].
      destruct (proj2 W f Hf) as [Wid [Wlen _]].
      rewrite (addr_frag _ f); auto.
      - replace ((fr_id f * two32 + o) mod two32) with o.
        + destruct (row_of f o); [destruct Hv as [->|[]]; auto|destruct Hv].
        + rewrite N.add_comm, N.mod_add by exact two32_pos. rewrite N.mod_small; auto. lia.
      - rewrite N.div_add_l by exact two32_pos. rewrite N.div_small by lia. lia. }
    assert (Hhas : forall a v, In a l -> row_at fs a = Some v -> exists r, In r one /\ o_addr r = CVal a).
    { intros a v Ha Hv. destruct (addr_get a (Hok a Ha)) as [f [_ [Hf [Hid Ho]]]]. rewrite (addr_frag a f) in Hv by auto.
      exists {| o_val := v; o_id := NoCol; o_addr := CVal (fr_id f * two32 + a mod two32) |}. split.
      - unfold one. apply in_concat. 
        assert (Hin : In (row_offset a) (map row_offset (filter (fun b => fragment_id b =? fr_id f) s))).
        { apply in_map, filter_In. split; [now apply Hs|]. rewrite Hfid, Hid by auto. apply N.eqb_refl. }
        exists (flat_map (frag_row f true) (map row_offset (filter (fun b => fragment_id b =? fr_id f) s))). split.
        + apply in_map_iff. exists (f, map row_offset (filter (fun b => fragment_id b =? fr_id f) s)). split; auto. apply Hparts. split; auto. split; auto.
          intros C. rewrite C in Hin. destruct Hin.
        + apply in_flat_map. exists (a mod two32). split; [exact Hin|]. unfold frag_row. rewrite Hv. now left.
      - cbn [o_addr]. f_equal. rewrite Hid, N.mul_comm. symmetry. apply N.div_mod. exact two32_pos. }
    f_equal. clear Hne Eb. clearbody one. 
    assert (Hl : forall a, In a l -> In a l) by auto. revert Hl. generalize l at 1 3 4. intros l'. induction l' as [|a l' IH]; intros Hl; auto.
    cbn [flat_map]. rewrite IH by (intros; apply Hl; now right). f_equal. assert (Ha := Hl a (or_introl eq_refl)).
    pose proof (addr_position_spec a one) as P. destruct (addr_position a one) as [i|].
    - destruct P as [r [P1 P2]]. rewrite P1. destruct (Hone r (nth_error_In _ _ P1)) as [a' [E1 E2]]. rewrite P2 in E1. injection E1 as <-. now rewrite E2.
    - destruct (row_at fs a) as [v|] eqn:E; auto. destruct (Hhas a v Ha E) as [r [H1 H2]]. exfalso. now apply (P r).
  Qed.

  Theorem do_take_rows_spec : forall l, Forall (addr_ok fs) l ->
    do_take_rows batching fs l = Ok (flat_map (fun a => opt_list (row_at fs a)) l).
  Proof.
    intros l Hok. destruct l as [|a0 t]; [reflexivity|]. cbn [do_take_rows].
    destruct (as_contiguous (check_row_addrs (a0 :: t))) eqn:Ec; [now apply take_contiguous|].
    destruct (as_sorted (check_row_addrs (a0 :: t))); [now apply take_sorted_spec|].
    apply take_unsorted_spec; auto. discriminate.
  Qed.
End Addr.
