(* C27: taking rows by dataset offset. *)
From Coq Require Import List Arith NArith Bool Lia Permutation.
From Coq Require Import ZifyBool ZifyN ZifyNat.
From Verif Require Import Lib AMap RowIdsModel RowIdsSpec SerdeModel ReadParamsModel ReadParamsProofs TreeMapModel TreeMapProofs
  DeletionModel DeletionSpec DeletionProofs StreamModel StreamProofs TakeModel TakeProofs.
Import ListNotations.
Local Open Scope N_scope.

Definition del_items {A} (f : frag A) : list N := match fr_dv f with Some d => dv_items d | None => [] end.
Definition frag_live {A} (f : frag A) : list N := alive (del_items f) (N.of_nat (length (fr_rows f))).
(* addresses of the surviving rows, in dataset order *)
Definition live_addrs {A} (fs : list (frag A)) : list N := flat_map (fun f => map (fun o => fr_id f * two32 + o) (frag_live f)) fs.

Lemma count_live : forall {A} (f : frag A), frag_wf f -> count_rows f = N.of_nat (length (frag_live f)).
Proof.
  intros A f [_ [_ Wd]]. unfold count_rows, frag_live, del_items. destruct (fr_dv f) as [d|].
  - destruct Wd as [W1 W2]. pose proof (live_dead (dv_items d) (N.of_nat (length (fr_rows f))) (wf_NoDup d W1)) as E.
    rewrite dead_all in E by exact W2. unfold live, dv_len in *. lia.
  - unfold alive. rewrite filter_all_true by auto. rewrite nrange_length. lia.
Qed.

Definition mp_ok {A} (fs : list (frag A)) (mp : option (dv * mapper)) (k0 : N) : Prop :=
  match fs with
  | f :: _ => match fr_dv f with None => mp = None | Some d => exists m, mp = Some (d, m) /\ om_inv d k0 m end
  | [] => True
  end.
Lemma mapper_of_ok : forall {A} (fs : list (frag A)), mp_ok fs (mapper_of fs) 0.
Proof.
  intros A [|f t]; cbn; auto. destruct (fr_dv f) as [d|]; auto. exists om_new. split; auto. repeat split; cbn; lia.
Qed.

Lemma seek_spec : forall {A} (fs : list (frag A)) off mp k0 o, (forall f, In f fs -> frag_wf f) -> mp_ok fs mp k0 ->
  off + k0 <= o -> o < off + N.of_nat (length (live_addrs fs)) ->
  exists f t off' mp' k0' pre, seek fs off mp o = (f :: t, off', mp') /\ off' + k0' <= o /\ o < off' + N.of_nat (length (frag_live f)) /\
    mp_ok (f :: t) mp' k0' /\ live_addrs fs = pre ++ live_addrs (f :: t) /\ off' = off + N.of_nat (length pre) /\
    (forall g, In g (f :: t) -> In g fs).
Proof.
  induction fs as [|f t IH]; intros off mp k0 o Wf Hm Hk Ho; [cbn in Ho; lia|].
  cbn [seek]. rewrite (count_live f) by (apply Wf; now left).
  destruct (off + N.of_nat (length (frag_live f)) <=? o) eqn:E.
  - unfold live_addrs in Ho. cbn [flat_map] in Ho. rewrite app_length, map_length in Ho.
    destruct (IH (off + N.of_nat (length (frag_live f))) (mapper_of t) 0 o) as [f' [t' [off' [mp' [k' [pre [S1 [S2 [S3 [S4 [S5 [S6 S7]]]]]]]]]]]].
    + intros; apply Wf; now right.
    + apply mapper_of_ok.
    + lia.
    + unfold live_addrs. lia.
    + exists f', t', off', mp', k', (map (fun o => fr_id f * two32 + o) (frag_live f) ++ pre).
      split; auto. split; auto. split; auto. split; auto. split.
      * unfold live_addrs in *. cbn [flat_map] in *. rewrite <- app_assoc, <- S5. reflexivity.
      * split; [rewrite app_length, map_length; lia|]. intros g Hg. right. now apply S7.
  - exists f, t, off, mp, k0, []. split; auto. split; auto. split; [lia|]. split; auto. split; auto. split; [cbn; lia|auto].
Qed.

Lemma nondec_trans : forall l x y, x <= y -> nondec (y :: l) -> nondec (x :: l).
Proof. intros [|z l] x y H; cbn; auto. intros [H1 H2]. split; auto. lia. Qed.

Lemma addr_loop_spec : forall {A} os (fs : list (frag A)) off mp k0, (forall f, In f fs -> frag_wf f) -> mp_ok fs mp k0 ->
  nondec ((off + k0) :: os) -> (forall o, In o os -> o < off + N.of_nat (length (live_addrs fs))) ->
  exists res, addr_loop fs off mp os = Some res /\ map Some res = map (fun o => nth_error (live_addrs fs) (N.to_nat (o - off))) os.
Proof.
  intros A. induction os as [|o os IH]; intros fs off mp k0 Wf Hm Hs Hl; [exists []; auto|].
  cbn [nondec] in Hs. destruct Hs as [Hs1 Hs2].
  destruct (seek_spec fs off mp k0 o Wf Hm Hs1) as [f [t [off' [mp' [k' [pre [S1 [S2 [S3 [S4 [S5 [S6 S7]]]]]]]]]]]]; [apply Hl; now left|].
  cbn [addr_loop]. rewrite S1. assert (Wf' := Wf f (S7 f (or_introl eq_refl))).
  assert (Wft : forall g, In g (f :: t) -> frag_wf g) by auto.
  destruct (Wf') as [Wid [Wlen Wd]].
  assert (Hlive : N.of_nat (length (frag_live f)) <= N.of_nat (length (fr_rows f))).
  { pose proof (live_le (del_items f) (N.of_nat (length (fr_rows f)))). unfold live, frag_live in *. lia. }
  replace ((o - off') mod two32) with (o - off') by (symmetry; apply N.mod_small; lia).
  replace (fr_id f mod two32) with (fr_id f) by (symmetry; apply N.mod_small; lia).
  assert (Hnth : forall a, nth_error (frag_live f) (N.to_nat (o - off')) = Some a ->
    nth_error (live_addrs fs) (N.to_nat (o - off)) = Some (fr_id f * two32 + a) /\ a < two32).
  { intros a Ha. split.
    - rewrite S5, nth_error_app2 by lia. replace (N.to_nat (o - off) - length pre)%nat with (N.to_nat (o - off')) by lia.
      unfold live_addrs. cbn [flat_map]. rewrite nth_error_app1 by (rewrite map_length; lia). rewrite nth_error_map, Ha. reflexivity.
    - apply nth_error_In in Ha. unfold frag_live in Ha. apply alive_In in Ha. lia. }
  assert (Hrest : forall mp2 k2, mp_ok (f :: t) mp2 k2 -> off' + k2 <= o -> 
    exists res, addr_loop (f :: t) off' mp2 os = Some res /\ map Some res = map (fun o => nth_error (live_addrs fs) (N.to_nat (o - off))) os).
  { intros mp2 k2 Hm2 Hk2. destruct (IH (f :: t) off' mp2 k2 Wft Hm2) as [res [R1 R2]].
    - eapply nondec_trans; eauto.
    - intros o' Ho'. pose proof (Hl o' (or_intror Ho')) as H. rewrite S5, app_length in H. lia.
    - exists res. split; auto. rewrite R2. apply map_ext_in. intros o' Ho'. rewrite S5.
      assert (o <= o'). { clear - Hs2 Ho'. revert o Hs2. induction os as [|x l IHl]; intros o Hs2; [destruct Ho'|].
        cbn [nondec] in Hs2. destruct Hs2 as [H1 H2]. destruct Ho' as [<-|H']; auto. specialize (IHl H' x H2). lia. }
      rewrite nth_error_app2 by lia. f_equal. lia. }
  cbn [mp_ok] in S4. destruct (fr_dv f) as [d|] eqn:Ed.
  - destruct S4 as [m [-> Hinv]]. destruct Wd as [Wd1 Wd2].
    assert (Hdel : del_items f = dv_items d) by (unfold del_items; now rewrite Ed).
    destruct (map_offset_spec d m k' (o - off') (N.of_nat (length (fr_rows f))) Wd1 Wd2 Wlen Hinv) as [a [m' [K1 [K2 K3]]]];
      [lia|unfold frag_live in S3; rewrite Hdel in S3; unfold live; lia|].
    rewrite K2. destruct (Hrest (Some (d, m')) (o - off')) as [res [R1 R2]]; [cbn [mp_ok]; rewrite Ed; eauto|lia|].
    rewrite R1. cbn [omap]. eexists. split; [reflexivity|]. cbn [map]. f_equal; auto.
    destruct (Hnth a) as [E1 E2].
    + unfold frag_live. rewrite Hdel. apply kth_nth. rewrite N2Nat.id. split; auto.
      destruct (kth_exists (dv_items d) (N.of_nat (length (fr_rows f))) (o - off')) as [a' [L' K']]; [unfold frag_live in S3; rewrite Hdel in S3; unfold live; lia|].
      now rewrite (kth_unique _ _ _ _ K1 K').
    + rewrite E1. f_equal. now apply new_from_parts_add.
  - subst mp'. destruct (Hrest None k') as [res [R1 R2]]; [cbn [mp_ok]; rewrite Ed; auto|lia|].
    rewrite R1. cbn [omap]. eexists. split; [reflexivity|]. cbn [map]. f_equal; auto.
    destruct (Hnth (o - off')) as [E1 E2].
    + unfold frag_live, del_items in *. rewrite Ed in *. unfold alive in *. rewrite filter_all_true in * by auto. rewrite nrange_length in S3.
      rewrite nrange_nth by lia. f_equal. lia.
    + rewrite E1. f_equal. now apply new_from_parts_add.
Qed.

(* [p] sorts the offsets *)
Definition sorts (p : list nat) (l : list N) : Prop := Permutation p (seq 0 (length l)) /\ nondec (apply_slice p l).

Lemma index_of_In : forall p j, In j p -> exists i, index_of j p = Some i /\ nth_error p i = Some j.
Proof.
  induction p as [|x t IH]; intros j H; [destruct H|]. cbn [index_of]. destruct (x =? j)%nat eqn:E.
  - apply Nat.eqb_eq in E. subst. exists 0%nat. auto.
  - apply Nat.eqb_neq in E. destruct H as [->|H]; [congruence|]. destruct (IH j H) as [i [H1 H2]]. rewrite H1. exists (Datatypes.S i). auto.
Qed.
Lemma apply_inv_spec : forall {B} p (l : list N) (g : N -> B), Permutation p (seq 0 (length l)) ->
  apply_inv p (map g (apply_slice p l)) = Some (map g l).
Proof.
  intros B p l g Hp. unfold apply_inv, apply_slice. rewrite !map_length, Nat.eqb_refl. cbn [negb].
  assert (Hlen : length p = length l) by (rewrite (Permutation_length Hp), seq_length; auto). rewrite Hlen.
  assert (G : forall n, (forall i, (i < n)%nat -> (i < length l)%nat) -> forall k, (k + n <= length l)%nat ->
    sequence_opt (map (fun j => obind (index_of j p) (nth_error (map g (map (fun i => nth i l 0) p)))) (seq k n)) = Some (map g (firstn n (skipn k l)))).
  { induction n; intros Hn k Hk; auto. cbn [seq map]. 
    destruct (index_of_In p k) as [i [I1 I2]]; [apply Permutation_sym in Hp; apply (Permutation_in _ Hp), in_seq; lia|].
    rewrite I1. cbn [obind]. rewrite !nth_error_map, I2. cbn [option_map].
    destruct (skipn k l) as [|x r] eqn:Es; [apply (f_equal (@length N)) in Es; rewrite skipn_length in Es; cbn in Es; lia|].
    assert (nth k l 0 = x) as ->.
    { rewrite <- (firstn_skipn k l), Es, app_nth2; rewrite firstn_length; [|lia]. replace (k - Nat.min k (length l))%nat with 0%nat by lia. reflexivity. }
    cbn [sequence_opt firstn map]. rewrite IHn by (auto; lia).
    replace (skipn (Datatypes.S k) l) with r; [reflexivity|]. replace (Datatypes.S k) with (k + 1)%nat by lia. rewrite <- skipn_skipn', Es. reflexivity. }
  specialize (G (length l) ltac:(auto) 0%nat ltac:(lia)). cbn [skipn] in G. rewrite firstn_all in G. exact G.
Qed.

Lemma row_at_live : forall {A} (fs : list (frag A)), ds_wf fs -> forall all, incl fs all -> ds_wf all ->
  map (row_at all) (live_addrs fs) = map Some (live_rows fs) /\ Forall (addr_ok all) (live_addrs fs).
Proof.
  intros A fs W all Hi Wa. induction fs as [|f t IH]; [split; constructor|].
  destruct IH as [IH1 IH2]; [split; [apply NoDup_cons_iff with (a := fr_id f); apply W|intros; apply W; now right]|intros x Hx; apply Hi; now right|].
  assert (Hf : In f all) by (apply Hi; now left). destruct (proj2 Wa f Hf) as [Wid [Wlen Wd]].
  unfold live_addrs, live_rows in *. cbn [flat_map]. rewrite !map_app, IH1.
  assert (Hdm : forall o, o < N.of_nat (length (fr_rows f)) -> (fr_id f * two32 + o) / two32 = fr_id f /\ (fr_id f * two32 + o) mod two32 = o).
  { intros o Ho. rewrite N.div_add_l by exact two32_pos. rewrite (N.add_comm (_ * _) o), N.mod_add by exact two32_pos. rewrite N.div_small, N.mod_small by lia. lia. }
  split.
  - f_equal. unfold frag_live, alive. rewrite Nat2N.id.
    assert (G : forall l, (forall o, In o l -> o < N.of_nat (length (fr_rows f))) ->
      map (row_at all) (map (fun o => fr_id f * two32 + o) (filter (fun x => negb (memN x (del_items f))) l)) =
      map Some (flat_map (fun o => opt_list (row_of f o)) l)).
    { induction l as [|o l IHl]; intros Hl; auto. cbn [filter flat_map]. rewrite map_app, <- IHl by (intros; apply Hl; now right).
      assert (Hd : deleted_in f o = memN o (del_items f)) by (unfold deleted_in, del_items; destruct (fr_dv f); auto).
      assert (Ho := Hl o (or_introl eq_refl)).
      unfold row_of. rewrite Hd. destruct (memN o (del_items f)) eqn:Em; cbn [negb map opt_list app]; auto.
      destruct (nth_error (fr_rows f) (N.to_nat o)) as [v|] eqn:En; [|apply nth_error_None in En; lia].
      cbn [opt_list map app]. f_equal. destruct (Hdm o Ho) as [D1 D2]. rewrite (addr_frag all Wa _ f Hf) by congruence.
      rewrite D2. unfold row_of. rewrite Hd. exact En. }
    apply G. intros o Ho. apply nrange_In in Ho. lia.
  - apply Forall_app. split; auto. apply Forall_forall. intros a Ha. apply in_map_iff in Ha as [o [<- Ho]].
    unfold frag_live in Ho. apply alive_In in Ho as [Ho _]. exists f. destruct (Hdm o Ho) as [D1 D2]. rewrite D1, D2. auto.
Qed.

(* every in-range offset gives the corresponding surviving row, in request
   order, duplicates included *)
Theorem take_spec : forall {A} batching (fs : list (frag A)) p offsets, (forall l, concat (batching l) = l) -> ds_wf fs ->
  sorts p offsets -> (forall o, In o offsets -> o < N.of_nat (length (live_rows fs))) ->
  exists out, take batching fs p offsets = Ok out /\ map Some out = map (fun o => nth_error (live_rows fs) (N.to_nat o)) offsets.
Proof.
  intros A batching fs p offsets Hb W [Hp1 Hp2] Ho.
  destruct (row_at_live fs W fs (incl_refl _) W) as [L1 L2].
  assert (Hlen : length (live_addrs fs) = length (live_rows fs)) by (apply (f_equal (@length _)) in L1; now rewrite !map_length in L1).
  unfold take. destruct offsets as [|o0 os] eqn:Eo; [exists []; auto|]. rewrite <- Eo in *.
  assert (Hin : forall o, In o (apply_slice p offsets) -> In o offsets).
  { intros o H. unfold apply_slice in H. apply in_map_iff in H as [i [<- Hi]]. apply nth_In.
    apply (Permutation_in _ Hp1) in Hi. apply in_seq in Hi. lia. }
  destruct (addr_loop_spec (apply_slice p offsets) fs 0 (mapper_of fs) 0) as [res [R1 R2]].
  - apply W.
  - apply mapper_of_ok.
  - clear - Hp2. destruct (apply_slice p offsets); cbn; auto. split; auto. lia.
  - intros o H. apply Hin in H. rewrite Hlen. specialize (Ho o H). lia.
  - unfold offsets_to_addrs. rewrite R1. cbn [obind].
    set (g := fun o => nth (N.to_nat o) (live_addrs fs) 0).
    assert (Hres : res = map g (apply_slice p offsets)).
    { assert (map Some res = map Some (map g (apply_slice p offsets))).
      { rewrite R2, map_map. apply map_ext_in. intros o H. rewrite N.sub_0_r. apply nth_error_nth'. apply Hin, Ho in H. lia. }
      clear - H. revert H. generalize (map g (apply_slice p offsets)). induction res; intros [|y l] H; cbn in H; try discriminate; auto.
      injection H as -> H. f_equal. now apply IHres. }
    rewrite Hres, apply_inv_spec by auto.
    rewrite (do_take_rows_spec fs W batching Hb).
    + exists (flat_map (fun a => opt_list (row_at fs a)) (map g offsets)). split; auto.
      clear - Ho Hlen L1. induction offsets as [|o l IH]; auto. cbn [map flat_map]. rewrite map_app, IH by (intros; apply Ho; now right).
      assert (Hr : row_at fs (g o) = nth_error (live_rows fs) (N.to_nat o)).
      { specialize (Ho o (or_introl eq_refl)). unfold g.
        assert (E : nth_error (map (row_at fs) (live_addrs fs)) (N.to_nat o) = nth_error (map Some (live_rows fs)) (N.to_nat o)) by now rewrite L1.
        rewrite !nth_error_map in E. rewrite (nth_error_nth' (live_addrs fs) 0) in E by lia. cbn [option_map] in E.
        destruct (nth_error (live_rows fs) (N.to_nat o)); cbn in E; congruence. }
      rewrite Hr. destruct (nth_error (live_rows fs) (N.to_nat o)) eqn:E; auto. apply nth_error_None in E. specialize (Ho o (or_introl eq_refl)). lia.
    + apply Forall_forall. intros a Ha. apply in_map_iff in Ha as [o [<- Ha]]. rewrite Forall_forall in L2. apply L2. unfold g. apply nth_In.
      specialize (Ho o Ha). lia.
Qed.

(* asking for addresses: refused exactly when some row is deleted *)
Theorem take_with_addr_spec : forall {A} batching (fs : list (frag A)) l, (forall l, concat (batching l) = l) -> ds_wf fs ->
  Forall (addr_ok fs) l ->
  do_take_with_addr batching fs l =
    if forallb (fun a => match row_at fs a with Some _ => true | None => false end) l
    then Ok (flat_map (fun a => map (fun v => (v, a)) (opt_list (row_at fs a))) l) else Err.
Proof.
  intros A batching fs l Hb W Hok. unfold do_take_with_addr. rewrite (do_take_rows_spec fs W batching Hb l Hok). cbn [ok_bind].
  assert (Hle : forall l, (length (flat_map (fun a => opt_list (row_at fs a)) l) <= length l)%nat).
  { induction l0; auto. cbn [flat_map length]. rewrite app_length. destruct (row_at fs a); cbn [opt_list length]; lia. }
  clear Hok. assert (G : (length (flat_map (fun a => opt_list (row_at fs a)) l) =? length l)%nat = forallb (fun a => match row_at fs a with Some _ => true | None => false end) l).
  { induction l as [|a l IH]; auto. cbn [flat_map length forallb]. rewrite app_length. destruct (row_at fs a); cbn [opt_list length andb]; auto.
    apply Nat.eqb_neq. specialize (Hle l). lia. }
  rewrite G. destruct (forallb _ l) eqn:E; auto. f_equal. clear G.
  induction l as [|a l IH]; auto. cbn [flat_map forallb] in *. apply andb_true_iff in E as [E1 E2].
  destruct (row_at fs a); [|discriminate]. cbn [opt_list app map combine]. f_equal. now apply IH.
Qed.

(* ---- out-of-range offsets ---- *)
Definition two_rows : list (frag nat) := [ {| fr_id := 0; fr_rows := [10; 11]%nat; fr_dv := None |} ].
Definition one_batch {A} (l : list A) : list (list A) := [l].
(* the same request in another order is an error instead of a short result *)
Theorem take_out_of_range_refuted :
  ds_wf two_rows /\ sorts [0; 1]%nat [0; 100] /\ sorts [1; 0]%nat [100; 0] /\ sorts [0; 1]%nat [100; 100] /\
  take one_batch two_rows [0; 1]%nat [0; 100] = Err /\
  take one_batch two_rows [1; 0]%nat [100; 0] = Ok [10]%nat /\
  take one_batch two_rows [0; 1]%nat [100; 100] = Panic.
Proof.
  split; [split; [repeat constructor; simpl; tauto|intros f [<-|[]]; repeat split; vm_compute; auto]|].
  split; [split; [reflexivity|vm_compute; intuition discriminate]|].
  split; [split; [cbn; constructor|vm_compute; intuition discriminate]|].
  split; [split; [reflexivity|vm_compute; intuition discriminate]|].
  repeat split; vm_compute; reflexivity.
Qed.

Example take_ex : take one_batch [ {| fr_id := 3; fr_rows := [10; 11; 12]%nat; fr_dv := Some (DSet [1]) |};
                                   {| fr_id := 7; fr_rows := [20; 21; 22]%nat; fr_dv := Some (DSet [0]) |} ] [2; 0; 1; 3]%nat [1; 3; 0; 3]
  = Ok [12; 22; 10; 22]%nat.
Proof. vm_compute. reflexivity. Qed.
Example take_sorted_ex : take one_batch [ {| fr_id := 3; fr_rows := [10; 11; 12]%nat; fr_dv := Some (DSet [1]) |};
                                   {| fr_id := 7; fr_rows := [20; 21; 22]%nat; fr_dv := Some (DSet [0]) |} ] [0; 1; 2]%nat [1; 2; 3]
  = Ok [12; 21; 22]%nat.
Proof. vm_compute. reflexivity. Qed.

(* rows by address: the rows come back in request order, duplicates included,
   and deleted rows are left out *)
Theorem take_addresses_spec : forall {A} batching (fs : list (frag A)) l, (forall l, concat (batching l) = l) -> ds_wf fs ->
  Forall (addr_ok fs) l ->
  do_take_rows batching fs l = Ok (flat_map (fun a => opt_list (row_at fs a)) l).
Proof. intros A batching fs l Hb W. exact (do_take_rows_spec fs W batching Hb l). Qed.
Example take_addresses_ex : do_take_rows one_batch
  [ {| fr_id := 3; fr_rows := [10; 11; 12]%nat; fr_dv := Some (DSet [1]) |}; {| fr_id := 7; fr_rows := [20; 21; 22]%nat; fr_dv := None |} ]
  [7 * two32 + 2; 3 * two32; 3 * two32 + 1; 3 * two32] = Ok [22; 10; 10]%nat.
Proof. vm_compute. reflexivity. Qed.
