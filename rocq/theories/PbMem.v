(* C77: the manifest a commit returns, against the one a reader loads from its file. *)
From Coq Require Import List Arith NArith ZArith Bool Lia String.
From Verif Require Import Lib SchemaModel SchemaProofs PbModel PbProofs.
From Verif Require TxnModel.
Import ListNotations.
Local Open Scope N_scope.

Definition set_local (m : rmanifest) (s : rschema) : rmanifest :=
  {| rm_schema := rm_schema m; rm_local := s; rm_version := rm_version m; rm_writer := rm_writer m; rm_fragments := rm_fragments m;
     rm_aux := rm_aux m; rm_index_section := rm_index_section m; rm_nanos := rm_nanos m; rm_tag := rm_tag m; rm_rflags := rm_rflags m;
     rm_wflags := rm_wflags m; rm_max := rm_max m; rm_txn := rm_txn m; rm_offsets := rm_offsets m; rm_next_row := rm_next_row m;
     rm_format := rm_format m; rm_config := rm_config m; rm_blob := rm_blob m |}.
(* the operation replaces schema or field metadata *)
Definition replaces_metadata (o : rop) : bool :=
  match o with RUpdateConfig _ _ sm fm => TxnModel.is_some sm || match fm with Some (_ :: _) => true | _ => false end | _ => false end.
(* what the caller provides *)
Record assembly_ok (prev : option rmanifest) (s : rschema) (fs : list frag) (c : assembly) : Prop := {
  ao_schema : schema_ok (rs_fields s);
  ao_arrays : no_arrays (rs_fields s);
  ao_counted : Forall counted fs;
  ao_nanos : as_nanos c < two63 * giga;
  ao_tag : as_tag c <> Some EmptyString;
  ao_path : as_path c <> EmptyString;
  ao_blob : as_blob c <> Some 0;
  ao_prev : forall p, prev = Some p -> rm_blob p <> Some 0 }.

(* ---- metadata updates keep everything but metadata ---- *)
Lemma meta_in_eq : forall i md a ch, meta_in i md (RF a ch) = if (a_id a =? i)%Z then Some (RF (set_meta a md) ch) else omap (RF a) (meta_at i md ch).
Proof. intros. cbn [meta_in]. destruct (a_id a =? i)%Z; [reflexivity|]. f_equal. induction ch as [|x t IH]; [reflexivity|]. cbn [meta_at]. rewrite IH. reflexivity. Qed.
Definition same_but_meta (a b : attrs) : Prop := exists md, b = set_meta a md.
Inductive like : rfield -> rfield -> Prop := like_intro : forall a b c d, same_but_meta a b -> Forall2 like c d -> like (RF a c) (RF b d).
Lemma sbm_refl : forall a, same_but_meta a a.
Proof. intros []. eexists. reflexivity. Qed.
Lemma like_refl : forall f, like f f.
Proof. induction f as [a c IH] using rfield_ind'. constructor; [apply sbm_refl|]. induction IH; constructor; auto. Qed.
Lemma likes_refl : forall l, Forall2 like l l.
Proof. induction l; constructor; auto using like_refl. Qed.
Lemma meta_at_of : forall l i md l', Forall (fun f => forall g, meta_in i md f = Some g -> like f g) l -> meta_at i md l = Some l' -> Forall2 like l l'.
Proof.
  induction l as [|x t IH]; intros i md l' F E; [discriminate|]. cbn [meta_at] in E. inversion F as [|? ? Fx Ft]; subst.
  destruct (meta_in i md x) as [x'|] eqn:X.
  - injection E as <-. constructor; [apply Fx; reflexivity|apply likes_refl].
  - destruct (meta_at i md t) as [t'|] eqn:T; [|discriminate]. injection E as <-. constructor; [apply like_refl|]. apply (IH i md); assumption.
Qed.
Lemma meta_in_like : forall f i md g, meta_in i md f = Some g -> like f g.
Proof.
  induction f as [a c IH] using rfield_ind'. intros i md g E. rewrite meta_in_eq in E. destruct (a_id a =? i)%Z.
  - injection E as <-. constructor; [exists md; reflexivity|apply likes_refl].
  - destruct (meta_at i md c) as [c'|] eqn:X; [|discriminate]. injection E as <-. constructor; [apply sbm_refl|]. apply (meta_at_of c i md c'); [|exact X].
    eapply Forall_impl; [|exact IH]. intros x Hx g. apply Hx.
Qed.
Lemma meta_at_like : forall l i md l', meta_at i md l = Some l' -> Forall2 like l l'.
Proof. intros l i md l' E. apply (meta_at_of l i md l'); [|exact E]. apply Forall_forall. intros x _ g. apply meta_in_like. Qed.

Lemma like_facts : forall f g, like f g ->
  (forall p, placed p f -> placed p g) /\ Forall2 (fun x y => same_but_meta (r_attrs x) (r_attrs y)) (pre_order f) (pre_order g).
Proof.
  induction f as [a c IH] using rfield_ind'. intros g L. inversion L as [? b ? d S F]; subst. destruct S as [md ->].
  assert (K : (forall q, Forall (placed q) c -> Forall (placed q) d) /\ Forall2 (fun x y => same_but_meta (r_attrs x) (r_attrs y)) (fields_pre_order c) (fields_pre_order d)).
  { clear L. induction F as [|x y t u Lx F IHF]; [split; [auto|constructor]|]. inversion IH as [|? ? Ix It]; subst. destruct (Ix y Lx) as [P1 P2]. destruct (IHF It) as [Q1 Q2].
    split; [intros q H; inversion H; subst; constructor; auto|]. unfold fields_pre_order in *. cbn [flat_map]. apply Forall2_app; assumption. }
  destruct K as [K1 K2]. split.
  - intros p P. inversion P as [? ? ? E1 E2 E3]; subst. constructor; [reflexivity| |apply K1; exact E3]. destruct E2 as [->|E2]; [|right; exact E2]. left. inversion F. reflexivity.
  - rewrite !pre_order_eq. constructor; [exists md; reflexivity|exact K2].
Qed.
Lemma likes_facts : forall l m, Forall2 like l m ->
  (forall p, Forall (placed p) l -> Forall (placed p) m) /\ Forall2 (fun x y => same_but_meta (r_attrs x) (r_attrs y)) (fields_pre_order l) (fields_pre_order m).
Proof.
  intros l m F. induction F as [|x y t u Lx F [I1 I2]]; [split; [auto|constructor]|]. destruct (like_facts x y Lx) as [P1 P2].
  split; [intros p H; inversion H; subst; constructor; auto|]. unfold fields_pre_order in *. cbn [flat_map]. apply Forall2_app; assumption.
Qed.
Lemma likes_ok : forall l m, Forall2 like l m -> schema_ok l -> schema_ok m.
Proof.
  intros l m F (P & ND & D). destruct (likes_facts l m F) as [H1 H2]. split; [apply H1, P|]. split.
  - replace (r_field_ids m) with (r_field_ids l); [exact ND|]. unfold r_field_ids. clear -H2. induction H2 as [|x y t u [md E] F IH]; [reflexivity|]. cbn [map]. rewrite IH. f_equal.
    unfold r_id. rewrite E. reflexivity.
  - clear -H2 D. revert D. induction H2 as [|x y t u [md E] F IH]; intros D; [constructor|]. inversion D as [|? ? D1 D2]; subst. constructor; [|auto]. rewrite E. intros d X. apply (D1 d X).
Qed.
Lemma likes_arrays : forall l m, Forall2 like l m -> no_arrays l -> no_arrays m.
Proof.
  intros l m F NA. destruct (likes_facts l m F) as [_ H2]. unfold no_arrays in *. revert NA. generalize (fields_pre_order l) (fields_pre_order m) H2. clear.
  intros a b H. induction H as [|x y t u [md E] F IH]; intros NA f d; [intros []|]. intros [<-|I]; [|apply IH; [intros g e Ig; apply NA; right; exact Ig|exact I]].
  rewrite E. intros X. apply (NA x d (or_introl eq_refl) X).
Qed.

Definition metadata_only (m m' : rmanifest) : Prop := exists s, m' = set_schema m s /\ Forall2 like (rs_fields (rm_schema m)) (rs_fields s).
Lemma likes_trans_step : forall a b c, metadata_only a b -> metadata_only b c -> (forall x y z, like x y -> like y z -> like x z) -> metadata_only a c.
Proof.
  intros a b c [s [-> F]] [t [-> G]] T. exists t. split; [reflexivity|]. cbn in G. revert F G. generalize (rs_fields (rm_schema a)) (rs_fields s) (rs_fields t).
  intros x y z F. revert z. induction F as [|p q t1 t2 L F IH]; intros z G; inversion G; subst; constructor; eauto.
Qed.
Lemma like_trans : forall x y z, like x y -> like y z -> like x z.
Proof.
  induction x as [a c IH] using rfield_ind'. intros y z L M. inversion L as [? b ? d [m1 ->] F]; subst. inversion M as [? e ? f [m2 ->] G]; subst. constructor; [exists m2; destruct a; reflexivity|].
  clear L M. revert f G. induction F as [|p q t1 t2 Lp F IHF]; intros f G; inversion G; subst; [constructor|]. inversion IH; subst. constructor; eauto.
Qed.
Lemma mo_refl : forall m, metadata_only m m.
Proof. intros m. exists (rm_schema m). split; [destruct m; reflexivity|apply likes_refl]. Qed.
Lemma mo_trans : forall a b c, metadata_only a b -> metadata_only b c -> metadata_only a c.
Proof. intros. eapply likes_trans_step; eauto using like_trans. Qed.
Lemma mo_schema : forall md m, metadata_only m (update_schema_metadata md m).
Proof. intros. eexists. split; [reflexivity|]. cbn. apply likes_refl. Qed.
Lemma mo_field : forall i md m, metadata_only m (update_field_metadata i md m).
Proof.
  intros. unfold update_field_metadata. destruct (meta_at (as_i32 i) md (rs_fields (rm_schema m))) as [l|] eqn:E; [|apply mo_refl].
  eexists. split; [reflexivity|]. cbn. apply meta_at_like in E. exact E.
Qed.
Lemma mo_fields : forall ups m, metadata_only m (fold_left (fun m u => update_field_metadata (fst u) (snd u) m) ups m).
Proof. induction ups as [|u t IH]; intros m; [apply mo_refl|]. cbn [fold_left]. eapply mo_trans; [apply mo_field|apply IH]. Qed.

(* ---- assembled manifests ---- *)
Lemma counted_del : forall fs, Forall counted fs -> forall f d, In f fs -> fr_del f = Some d -> dn_count d <> Some 0.
Proof. intros fs F f d I. apply (proj2 (proj1 (Forall_forall _ _) F f I)). Qed.
Lemma r_flags_rowids : forall fs cfg st rf wf, r_flags fs cfg st = BOk (rf, wf) -> N.land 2 rf <> 0 -> forall f, In f fs -> fr_rowids f <> None.
Proof.
  intros fs cfg st rf wf. unfold r_flags. destruct (existsb _ fs || st).
  - destruct (forallb _ fs) eqn:A; [|discriminate]. intros _ _ f I X. rewrite forallb_forall in A. specialize (A f I). rewrite X in A. discriminate.
  - intros [= <- <-]. intros X. destruct (existsb _ fs); contradiction X; reflexivity.
Qed.
Lemma reload_local : forall m, schema_ok (rs_fields (rm_schema m)) -> no_arrays (rs_fields (rm_schema m)) -> Forall counted (rm_fragments m) ->
  compute_offsets (rm_fragments m) = BOk (rm_offsets m) -> (N.land 2 (rm_rflags m) <> 0 -> forall f, In f (rm_fragments m) -> fr_rowids f <> None) ->
  rm_nanos m < two63 * giga -> rm_tag m <> Some EmptyString -> rm_txn m <> Some EmptyString -> rm_blob m <> Some 0 ->
  dec_manifest (enc_manifest m) = BOk (set_local m (retain_storage_class SDefault (rm_schema m))).
Proof.
  intros m H1 H2 H3 H4 H5 H6 H7 H8 H9. set (m' := set_local m _). replace (enc_manifest m) with (enc_manifest m') by reflexivity.
  apply manifest_roundtrip_counted; [|exact H3]. constructor; cbn; try assumption; [reflexivity|]. intros f d. apply counted_del, H3.
Qed.
Theorem assembled_reloads : forall o prev s fs c m, assembly_ok prev s fs c -> assemble o prev s fs c = BOk m ->
  dec_manifest (enc_manifest m) = BOk (set_local m (retain_storage_class SDefault (rm_schema m))) /\
  (replaces_metadata o = false -> dec_manifest (enc_manifest m) = BOk m).
Proof.
  intros o prev s fs c m [A1 A2 A3 A4 A5 A6 A7 A8] E.
  assert (K : exists m0 rf wf cfg fmt mx', rm_schema m0 = s /\ rm_local m0 = retain_storage_class SDefault s /\ rm_fragments m0 = fs /\ compute_offsets fs = BOk (rm_offsets m0) /\ rm_blob m0 <> Some 0 /\
    (N.land 2 rf <> 0 -> forall f, In f fs -> fr_rowids f <> None) /\
    metadata_only (set_rest m0 c fmt rf wf mx' cfg) m /\ (replaces_metadata o = false -> m = set_rest m0 c fmt rf wf mx' cfg)).
  { unfold assemble in E.
    assert (B : exists m0, (match prev with Some p => manifest_from_previous (as_writer c) p s fs (as_blob c) | None => new_manifest (as_writer c) s fs (as_format c) (as_blob c) end) = BOk m0 /\
      rm_schema m0 = s /\ rm_local m0 = retain_storage_class SDefault s /\ rm_fragments m0 = fs /\ compute_offsets fs = BOk (rm_offsets m0) /\ rm_blob m0 <> Some 0).
    { destruct prev as [p|]; [unfold manifest_from_previous in *|unfold new_manifest in *]; destruct (compute_offsets fs) as [offs| |] eqn:CO; cbn in E |- *; try discriminate;
        eexists; (split; [reflexivity|]); cbn; repeat apply conj; try reflexivity; try exact A7.
      destruct (as_blob c); [exact A7|apply (A8 p eq_refl)]. }
    destruct B as (m0 & EB & B1 & B2 & B3 & B4 & B5). rewrite EB in E. cbn [TxnModel.bbind] in E. rewrite B3 in E.
    destruct (match as_flags c with Some stable => r_flags fs (rm_config m0) stable | None => BOk (0, 0) end) as [[rf wf]| |] eqn:EF; cbn [TxnModel.bbind] in E; try discriminate.
    destruct (r_max_fragment (rm_max m0) fs) as [mx| |]; cbn [TxnModel.bbind] in E; try discriminate. injection E as <-.
    assert (FR : N.land 2 rf <> 0 -> forall f, In f fs -> fr_rowids f <> None).
    { intros X. destruct (as_flags c) as [st|]; [apply (r_flags_rowids fs (rm_config m0) st rf wf EF X)|]. injection EF as <- <-. contradiction X. reflexivity. }
    exists m0, rf, wf. destruct o as [| | | | | | | | | | |up de sm fm];
      try (do 3 eexists; repeat apply conj; [exact B1|exact B2|exact B3|exact B4|exact B5|exact FR|apply mo_refl|intros _; reflexivity]).
    do 3 eexists. repeat apply conj; [exact B1|exact B2|exact B3|exact B4|exact B5|exact FR| |].
    - eapply mo_trans; [|destruct fm; [apply mo_fields|apply mo_refl]]. destruct sm; [apply mo_schema|apply mo_refl].
    - intros R. cbn in R. apply orb_false_iff in R. destruct R as [R1 R2]. destruct sm; [discriminate|]. destruct fm as [[|]|]; [reflexivity|discriminate|reflexivity]. }
  destruct K as (m0 & rf & wf & cfg & fmt & mx' & B1 & B2 & B3 & B4 & B5 & B6 & [s' [EM L]] & NM).
  assert (G : dec_manifest (enc_manifest m) = BOk (set_local m (retain_storage_class SDefault (rm_schema m)))).
  { rewrite EM. cbn in L. rewrite B1 in L. apply reload_local; cbn; rewrite ?B3; try assumption.
    - apply (likes_ok (rs_fields s)); assumption.
    - apply (likes_arrays (rs_fields s)); assumption.
    - intros X. injection X as X. contradiction. }
  split; [exact G|]. intros R. rewrite G. f_equal. specialize (NM R). rewrite NM. cbn. rewrite B1, <- B2. destruct m0; reflexivity.
Qed.
