(* C14 (serialization of row-id sets), C16/C17 (row filters), C64 (row-id
   sequence to row-id set). *)
From Coq Require Import List Arith NArith Bool Lia ZifyBool ZifyN ZifyNat.
From Verif Require Import Lib AMap RowIdsModel RowIdsSpec EncArrProofs BitmapProofs SegProofs SerdeModel SerdeProofs TreeMapModel TreeMapProofs TreeMapProofs2.
Import ListNotations.
Local Open Scope N_scope.
Local Opaque memN.

(** * C14 *)
(* contract of RoaringBitmap::serialize_into / deserialize_from on the bitmaps of
   [m]: they round-trip, and a serialized bitmap has at least one byte and fewer
   than 2^32 *)
Definition codec_ok (ser : list N -> list N) (deser : list N -> option (list N)) (m : tmap) : Prop :=
  forall k s, In (k, Partial s) m ->
    deser (ser s) = Some s /\ ser s <> [] /\ N.of_nat (length (ser s)) < two32.

Lemma take_bytes_app : forall a r n, length a = n -> take_bytes n (a ++ r) = Some (a, r).
Proof.
  intros a r n <-. unfold take_bytes. rewrite app_length. replace (length a + length r <? length a)%nat with false by lia.
  rewrite firstn_app, firstn_all, Nat.sub_diag, skipn_app, skipn_all, Nat.sub_diag. cbn [firstn skipn app]. now rewrite app_nil_r.
Qed.
Lemma read_u32_le : forall v r, v < two32 -> read_u32 (le_bytes 4 v ++ r) = Some (v, r).
Proof.
  intros v r H. unfold read_u32. rewrite take_bytes_app by apply le_bytes_length. rewrite of_le_bytes_le; auto.
Qed.

Lemma put_snoc : forall {V} k (v : V) m, (forall y, In y (keys m) -> y < k) -> put k v m = m ++ [(k, v)].
Proof.
  induction m as [|[k' v'] m IH]; intros H; [reflexivity|]. cbn [put app].
  assert (k' < k) by (apply H; now left). replace (k <? k') with false by lia. replace (k =? k') with false by lia.
  f_equal. apply IH. intros y Hy. apply H. now right.
Qed.

Lemma read_entries_spec : forall ser deser m m0 rest, codec_ok ser deser m -> t_wf m -> (forall x y, In x (keys m0) -> In y (keys m) -> x < y) ->
  read_entries deser (length m) (flat_map (entry_bytes ser) m ++ rest) m0 = Some (m0 ++ m).
Proof.
  intros ser deser. induction m as [|[k s] m IH]; intros m0 rest C W H; [cbn; now rewrite app_nil_r|].
  destruct W as [[W1 W2] W3]. inversion W3 as [|? ? [Hk Hs] W4]; subst. cbn [fst snd] in *.
  cbn [length read_entries flat_map]. unfold entry_bytes at 1. cbn [fst snd]. rewrite <- !app_assoc.
  rewrite read_u32_le by auto. cbn [obind].
  assert (Hput : forall s', put k s' m0 = m0 ++ [(k, s')]) by (intros; apply put_snoc; intros y Hy; apply H; [auto|now left]).
  assert (Hnext : forall s', forall x y, In x (keys (m0 ++ [(k, s')])) -> In y (keys m) -> x < y).
  { intros s' x y Hx Hy. unfold keys in Hx. rewrite map_app in Hx. apply in_app_or in Hx. destruct Hx as [Hx|[<-|[]]].
    - apply H; auto. now right.
    - apply W1. exact Hy. }
  destruct s as [|s].
  - rewrite read_u32_le by (unfold two32; lia). cbn [obind N.eqb].
    rewrite Hput, IH; [|intros k' s' Hin; apply (C k' s'); now right|split; auto|apply Hnext]. now rewrite <- app_assoc.
  - rewrite <- !app_assoc. destruct (C k s (or_introl eq_refl)) as [C1 [C2 C3]]. rewrite read_u32_le by auto. cbn [obind].
    replace (N.of_nat (length (ser s)) =? 0) with false by (destruct (ser s); [congruence|cbn [length]; lia]).
    rewrite Nat2N.id, take_bytes_app by auto. cbn [obind]. rewrite C1. cbn [obind].
    rewrite Hput, IH; [|intros k' s' Hin; apply (C k' s'); now right|split; auto|apply Hnext]. now rewrite <- app_assoc.
Qed.

Theorem tree_map_roundtrip : forall ser deser m rest, codec_ok ser deser m -> t_wf m -> N.of_nat (length m) < two32 ->
  t_deserialize deser (t_serialize ser m ++ rest) = Some m.
Proof.
  intros ser deser m rest C W Hn. unfold t_deserialize, t_serialize. rewrite <- app_assoc.
  rewrite read_u32_le by auto. cbn [obind]. rewrite Nat2N.id.
  rewrite (read_entries_spec ser deser m [] rest C W); [reflexivity|]. intros x y [].
Qed.

Theorem tree_map_size : forall ser m, t_serialized_size ser m = length (t_serialize ser m).
Proof.
  intros ser m. unfold t_serialized_size, t_serialize. rewrite app_length, le_bytes_length.
  assert (G : forall n, fold_left (fun acc p => acc + 8 + match snd p with Partial s => length (ser s) | Full => 0 end)%nat m n
              = (n + length (flat_map (entry_bytes ser) m))%nat); [|apply G].
  induction m as [|[k s] m IH]; intros n; cbn [fold_left flat_map length]; [lia|].
  rewrite app_length, IH. unfold entry_bytes. rewrite !app_length. cbn [snd].
  destruct s as [|s]; rewrite ?app_length, ?le_bytes_length; lia.
Qed.

(* a codec meeting the contract: a marker byte, then 4 bytes per value *)
Definition toy_ser (s : list N) : list N := 1 :: flat_map (le_bytes 4) s.
Definition toy_deser (b : list N) : option (list N) := Some (map of_le_bytes (chunks_exact (length b) 4 (tl b))).
Example tree_map_roundtrip_ex :
  let m := [(0, Partial [1; 70000]); (7, Full); (9, Partial [])] in
  codec_ok toy_ser toy_deser m /\ t_deserialize toy_deser (t_serialize toy_ser m ++ [5]) = Some m /\
  t_serialized_size toy_ser m = 38%nat.
Proof.
  cbn zeta. split; [|vm_compute; auto]. intros k s [H|[H|[H|[]]]]; inversion H; subst; vm_compute; intuition discriminate.
Qed.

(** * C16 *)
Definition opt_wf (o : option tmap) : Prop := match o with Some m => am_wf m | None => True end.
Definition mask_wf (m : mask) : Prop := opt_wf (allow m) /\ opt_wf (block m).

(* membership of optional lists, as the doc comment of RowIdMask describes them *)
Definition allows (m : mask) (v : N) : bool := match allow m with Some a => t_contains v a | None => true end.
Definition blocks (m : mask) (v : N) : bool := match block m with Some b => t_contains v b | None => false end.

Theorem selected_spec : forall m v, selected m v = allows m v && negb (blocks m v).
Proof.
  intros [[a|] [b|]] v; unfold selected, allows, blocks; cbn; auto; now rewrite andb_true_r.
Qed.

Lemma enum_filter_spec : forall f l i k, In k (enum_filter f i l) <->
  (i <= k)%nat /\ exists v, nth_error l (k - i) = Some v /\ f v = true.
Proof.
  induction l as [|x l IH]; intros i k; cbn [enum_filter].
  - split; [intros []|]. intros [_ [v [H _]]]. now destruct (k - i)%nat.
  - assert (G : In k (enum_filter f (S i) l) <-> (i < k)%nat /\ exists v, nth_error (x :: l) (k - i) = Some v /\ f v = true).
    { rewrite IH. split; intros [H [v Hv]]; split; try lia; exists v.
      - replace (k - i)%nat with (S (k - S i)) by lia. exact Hv.
      - replace (k - i)%nat with (S (k - S i)) in Hv by lia. exact Hv. }
    destruct (f x) eqn:E; cbn [In]; rewrite G; split.
    + intros [->|[H [v Hv]]]; [split; [lia|]; rewrite Nat.sub_diag; exists x; auto|split; [lia|eauto]].
    + intros [H [v Hv]]. destruct (Nat.eq_dec i k) as [->|n]; [now left|]. right. split; [lia|eauto].
    + intros [H [v Hv]]. split; [lia|eauto].
    + intros [H [v [Hv Hf]]]. split; [|eauto]. destruct (Nat.eq_dec i k) as [->|n]; [|lia].
      rewrite Nat.sub_diag in Hv. cbn in Hv. congruence.
Qed.
Lemma enum_filter_sincn : forall f l i, sincn (enum_filter f i l).
Proof.
  induction l as [|x l IH]; intros i; cbn [enum_filter]; [exact I|]. destruct (f x); auto. split; auto.
  intros y Hy. apply enum_filter_spec in Hy. lia.
Qed.
Lemma enum_filter_ext : forall f g l i, (forall x, f x = g x) -> enum_filter f i l = enum_filter g i l.
Proof. induction l; intros i H; cbn; auto. rewrite H, IHl; auto. Qed.

Theorem selected_indices_spec : forall m ids,
  (allow m = None /\ block m = None -> selected_indices m ids = None) /\
  (~ (allow m = None /\ block m = None) -> exists r, selected_indices m ids = Some r /\ sincn r /\
     forall k, In k r <-> exists v, nth_error ids k = Some v /\ selected m v = true).
Proof.
  intros [a b] ids. split.
  - intros [H1 H2]. cbn in *. subst. reflexivity.
  - intros H. assert (G : selected_indices {| allow := a; block := b |} ids = Some (enum_filter (selected {| allow := a; block := b |}) 0 ids)).
    { unfold selected_indices, selected. cbn. destruct a, b; try reflexivity.
      - f_equal. apply enum_filter_ext. intros. apply andb_comm.
      - exfalso. apply H. auto. }
    rewrite G. eexists. split; [reflexivity|]. split; [apply enum_filter_sincn|].
    intros k. rewrite enum_filter_spec. rewrite Nat.sub_0_r. intuition lia.
Qed.

(* the right block list may not hold entirely a fragment the left block list holds in part *)
Definition blocks_unitable (x y : mask) : Prop :=
  match block x, block y with Some l, Some r => no_partial_vs_full l r | _, _ => True end.
Definition allows_unitable (x y : mask) : Prop :=
  match allow x, allow y with Some l, Some r => no_partial_vs_full l r | _, _ => True end.

Lemma both_wf : forall f x y, (forall a b, am_wf a -> am_wf b -> am_wf (f a b)) -> opt_wf x -> opt_wf y -> opt_wf (both f x y).
Proof. intros f [x|] [y|] H Hx Hy; cbn in *; auto. Qed.

Theorem mask_and_spec : forall x y v, mask_wf x -> mask_wf y -> blocks_unitable x y ->
  selected (mask_and x y) v = selected x v && selected y v.
Proof.
  intros [ax bx] [ay by_] v [A1 B1] [A2 B2] H. rewrite !selected_spec. unfold allows, blocks, mask_and. cbn [allow block] in *.
  unfold blocks_unitable in H. cbn [block] in H.
  assert (HA : match both t_and ax ay with Some a => t_contains v a | None => true end =
     match ax with Some a => t_contains v a | None => true end && match ay with Some a => t_contains v a | None => true end).
  { destruct ax, ay; cbn [both]; rewrite ?andb_true_r; auto. now apply and_spec. }
  assert (HB : match both t_or bx by_ with Some b => t_contains v b | None => false end =
     match bx with Some a => t_contains v a | None => false end || match by_ with Some a => t_contains v a | None => false end).
  { destruct bx, by_; cbn [both]; rewrite ?orb_false_r; auto. now apply or_spec. }
  rewrite HA, HB, negb_orb.
  destruct (match ax with Some a => t_contains v a | None => true end); destruct (match ay with Some a => t_contains v a | None => true end);
  destruct (match bx with Some a => t_contains v a | None => false end); destruct (match by_ with Some a => t_contains v a | None => false end); reflexivity.
Qed.

Theorem also_block_spec : forall m b v, am_wf b ->
  (forall e, block m = Some e -> no_partial_vs_full e b) ->
  selected (also_block m b) v = selected m v && negb (t_contains v b).
Proof.
  intros [a bl] b v W H. unfold also_block. destruct b as [|p b]; cbn [t_is_empty].
  - rewrite contains_get. cbn. now rewrite andb_true_r.
  - cbn [block]. destruct bl as [e|]; rewrite !selected_spec; unfold allows, blocks; cbn [allow block].
    + rewrite or_spec; auto. rewrite negb_orb. now rewrite andb_assoc.
    + now rewrite andb_true_r.
Qed.

Theorem also_allow_spec : forall m a v, am_wf a ->
  (forall e, allow m = Some e -> no_partial_vs_full e a) ->
  selected (also_allow m a) v = (allows m v || t_contains v a) && negb (blocks m v).
Proof.
  intros [al b] a v W H. unfold also_allow. cbn [allow block]. destruct al as [e|]; rewrite !selected_spec; unfold allows, blocks; cbn [allow block].
  - rewrite or_spec; auto.
  - reflexivity.
Qed.

(* witnesses: AND of two block lists, and also_block, lose a blocked whole fragment *)
Theorem mask_and_refuted : exists x y v, mask_wf x /\ mask_wf y /\
  selected y v = false /\ selected (mask_and x y) v = true.
Proof.
  exists (from_block [(0, Partial [5])]), (from_block [(0, Full)]), 6.
  split; [|split; [|vm_compute; auto]]; (split; [exact I|]; split; [intros ? []|exact I]).
Qed.
Theorem also_block_refuted : exists m b v, mask_wf m /\ am_wf b /\ t_contains v b = true /\ selected (also_block m b) v = true.
Proof.
  exists (from_block [(0, Partial [5])]), [(0, Full)], 6.
  split; [split; [exact I|]; split; [intros ? []|exact I]|]. split; [split; [intros ? []|exact I]|]. vm_compute. auto.
Qed.

Example mask_and_ex :
  let x := from_block [(0, Partial [5]); (2, Full)] in
  let y := {| allow := Some [(0, Full); (1, Partial [3])]; block := Some [(0, Partial [6])] |} in
  mask_wf x /\ mask_wf y /\ blocks_unitable x y /\
  selected (mask_and x y) 7 = true /\ selected (mask_and x y) 6 = false /\ selected (mask_and x y) 4294967299 = true.
Proof.
  cbn zeta. assert (S : forall (a b : N), a < b -> forall (u v : sel), am_wf [(a, u); (b, v)]).
  { intros a b H u v. split; [intros y [<-|[]]; exact H|]. split; [intros ? []|exact I]. }
  split; [split; [exact I|apply S; lia]|]. split; [split; [apply S; lia|split; [intros ? []|exact I]]|].
  split; [|vm_compute; auto].
  unfold blocks_unitable, no_partial_vs_full. cbn. intros f s. destruct (f =? 0) eqn:E; [|discriminate]. intros _. discriminate.
Qed.

(** * C17 *)
(* OR and NOT are exact on filters made of an allow list only *)
Theorem mask_or_allow_spec : forall a b v, am_wf b -> no_partial_vs_full a b ->
  selected (mask_or (from_allowed a) (from_allowed b)) v = selected (from_allowed a) v || selected (from_allowed b) v.
Proof.
  intros. unfold mask_or, selected, from_allowed. cbn [allow block both]. now apply or_spec.
Qed.
(* and OR is exact on filters made of a block list only *)
Theorem mask_or_block_spec : forall a b v, am_wf a ->
  selected (mask_or (from_block a) (from_block b)) v = selected (from_block a) v || selected (from_block b) v.
Proof.
  intros. unfold mask_or, selected, from_block. cbn [allow block both]. rewrite and_spec by auto. apply negb_andb.
Qed.
(* NOT is exact on filters with exactly one list *)
Theorem mask_not_spec : forall m v, (allow m = None /\ block m <> None) \/ (allow m <> None /\ block m = None) ->
  selected (mask_not m) v = negb (selected m v).
Proof.
  intros [[a|] [b|]] v H; unfold mask_not, selected; cbn in *; try (now rewrite negb_involutive); auto;
    destruct H as [[? ?]|[? ?]]; congruence.
Qed.
Theorem mask_not_all_rows_refuted : selected all_rows 0 = true /\ selected (mask_not all_rows) 0 = true.
Proof. auto. Qed.
Theorem mask_not_both_refuted : exists m v, mask_wf m /\ selected m v = false /\ selected (mask_not m) v = false.
Proof.
  exists {| allow := Some [(0, Partial [1])]; block := Some [(0, Partial [2])] |}, 3.
  split; [|vm_compute; auto]. split; (split; [intros ? []|exact I]).
Qed.
Theorem mask_or_refuted : exists x y v, mask_wf x /\ mask_wf y /\
  selected y v = true /\ selected (mask_or x y) v = false.
Proof.
  exists (from_block [(0, Partial [5])]), (from_allowed [(0, Partial [5])]), 5.
  split; [|split; [|vm_compute; auto]].
  - split; [exact I|]. split; [intros ? []|exact I].
  - split; [split; [intros ? []|exact I]|exact I].
Qed.
(* OR can also select a row neither side selects *)
Theorem mask_or_extra_refuted : exists x y v, mask_wf x /\ mask_wf y /\
  selected x v = false /\ selected y v = false /\ selected (mask_or x y) v = true.
Proof.
  exists {| allow := Some [(0, Partial [1])]; block := Some [(0, Partial [1])] |},
         {| allow := Some [(0, Partial [2])]; block := Some [(0, Partial [2])] |}, 1.
  split; [|split; [|vm_compute; auto]]; (split; (split; [intros ? []|exact I])).
Qed.

Theorem mask_arrow_roundtrip : forall ser deser m,
  (forall t, allow m = Some t \/ block m = Some t -> codec_ok ser deser t /\ t_wf t /\ N.of_nat (length t) < two32) ->
  from_arrow deser (into_arrow ser m) = Some m.
Proof.
  intros ser deser [a b] H. unfold from_arrow, into_arrow. cbn [allow block] in *.
  assert (G : forall t, (a = Some t \/ b = Some t) -> t_deserialize deser (t_serialize ser t) = Some t).
  { intros t Ht. destruct (H t Ht) as [? [? ?]]. rewrite <- (app_nil_r (t_serialize ser t)). now apply tree_map_roundtrip. }
  destruct b as [b|]; destruct a as [a|]; cbn [omap]; rewrite ?(G a), ?(G b); auto.
Qed.
