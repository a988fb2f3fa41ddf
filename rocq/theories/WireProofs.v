From Coq Require Import List Arith NArith Bool Lia ZifyBool ZifyN ZifyNat.
From Verif Require Import Lib RowIdsModel RowIdsSpec SerdeModel SerdeProofs WireModel.
Import ListNotations.
Local Open Scope nat_scope.

Lemma unvarint_varint : forall fuel v r, 0 < fuel -> (v < 128 ^ N.of_nat fuel)%N ->
  unvarint fuel (varint fuel v ++ r) = Some (v, r).
Proof.
  induction fuel as [|f IH]; intros v r Hf Hv; [lia|]. cbn [varint]. destruct (v <? 128)%N eqn:E.
  - cbn [app unvarint]. rewrite E. reflexivity.
  - cbn [app unvarint]. assert (H := N.mod_lt v 128 ltac:(lia)).
    replace (v mod 128 + 128 <? 128)%N with false by lia.
    destruct f as [|f]; [simpl in Hv; lia|].
    rewrite IH; [|lia|].
    + f_equal. f_equal. assert (D := N.div_mod v 128 ltac:(lia)). lia.
    + apply N.div_lt_upper_bound; [lia|]. rewrite <- N.pow_succ_r'.
      replace (N.succ (N.of_nat (S f))) with (N.of_nat (S (S f))) by lia. exact Hv.
Qed.

Lemma dec_enc_varint : forall v r, (v < two64)%N -> dec_varint (enc_varint v ++ r) = Some (v, r).
Proof.
  intros v r H. unfold dec_varint, enc_varint. rewrite unvarint_varint.
  - replace (v <? two64)%N with true by lia. reflexivity.
  - lia.
  - eapply N.lt_trans; [exact H|]. vm_compute. reflexivity.
Qed.

Lemma enc_varint_nonempty : forall v, exists b t, enc_varint v = b :: t.
Proof. intros v. unfold enc_varint. cbn [varint]. destruct (v <? 128)%N; eauto. Qed.

Definition field_ok (f : field) : Prop :=
  (0 < fst f /\ fst f * 8 + 2 < two64)%N /\
  match snd f with WInt v => (v < two64)%N | WBytes b => (N.of_nat (length b) < two64)%N end.

Lemma dec_enc_field : forall f r, field_ok f -> dec_field (enc_field f ++ r) = Some (f, r).
Proof.
  intros [n [v|b]] r [[H1 H2] H3]; cbn [fst snd] in *; unfold enc_field, dec_field; rewrite <- ?app_assoc.
  - rewrite dec_enc_varint by lia.
    replace (n * 8 / 8)%N with n by (symmetry; apply N.div_mul; lia).
    replace (n =? 0)%N with false by lia.
    replace (n * 8 mod 8)%N with 0%N by (symmetry; apply N.mod_mul; lia). cbn [N.eqb].
    rewrite dec_enc_varint by lia. reflexivity.
  - rewrite dec_enc_varint by lia.
    replace ((n * 8 + 2) / 8)%N with n by (apply N.div_unique with 2%N; lia).
    replace (n =? 0)%N with false by lia.
    replace ((n * 8 + 2) mod 8)%N with 2%N by (apply N.mod_unique with n; lia). cbn [N.eqb Pos.eqb].
    rewrite dec_enc_varint by lia. rewrite Nat2N.id, app_length.
    replace (length b + length r <? length b) with false by lia.
    rewrite firstn_app, firstn_all, Nat.sub_diag, skipn_app, skipn_all, Nat.sub_diag. cbn [firstn skipn app].
    now rewrite app_nil_r.
Qed.

Lemma enc_field_nonempty : forall f, exists b t, enc_field f = b :: t.
Proof.
  intros [n [v|b]]; unfold enc_field.
  - destruct (enc_varint_nonempty (n * 8)) as [x [t ->]]. simpl. eauto.
  - destruct (enc_varint_nonempty (n * 8 + 2)) as [x [t ->]]. simpl. eauto.
Qed.

Lemma dec_enc_fields : forall l fuel, Forall field_ok l -> length (enc_fields l) <= fuel ->
  dec_fields fuel (enc_fields l) = Some l.
Proof.
  induction l as [|f l IH]; intros fuel Hok Hf; [destruct fuel; reflexivity|].
  inversion Hok; subst. cbn [enc_fields flat_map] in *. fold (enc_fields l) in *. rewrite app_length in Hf.
  destruct (enc_field_nonempty f) as [b [t E]]. rewrite E in Hf. simpl in Hf. destruct fuel as [|fuel]; [lia|].
  unfold dec_fields. rewrite E at 1. cbn [app]. fold dec_fields.
  rewrite dec_enc_field by auto. rewrite IH by (auto; lia). reflexivity.
Qed.

Lemma parse_enc : forall l, Forall field_ok l -> parse (enc_fields l) = Some l.
Proof. intros. unfold parse. now apply dec_enc_fields. Qed.

Lemma bytes_in_fields : forall l n b, In (n, WBytes b) l -> length b <= length (enc_fields l).
Proof.
  induction l as [|f l IH]; intros n b H; [destruct H|]. cbn [enc_fields flat_map]. rewrite app_length.
  destruct H as [->|H].
  - unfold enc_field. rewrite !app_length. lia.
  - specialize (IH _ _ H). unfold enc_fields in IH. lia.
Qed.

Definition fits (l : list N) : Prop := (N.of_nat (length l) < two64)%N.

Lemma fits_sub : forall fs n b, fits (enc_fields fs) -> In (n, WBytes b) fs -> fits b.
Proof. unfold fits. intros fs n b H Hin. apply bytes_in_fields in Hin. lia. Qed.

(* the fields are well formed: small numbers, u64 values, and the byte strings fit *)
Definition small_field (f : field) : Prop :=
  (0 < fst f < 100)%N /\ match snd f with WInt v => (v < two64)%N | WBytes _ => True end.

Lemma fields_ok : forall fs, fits (enc_fields fs) -> Forall small_field fs -> Forall field_ok fs.
Proof.
  intros fs H Hs. apply Forall_forall. rewrite Forall_forall in Hs. intros [n v] Hin. specialize (Hs _ Hin).
  destruct Hs as [H1 H2]. cbn [fst snd] in *. split; cbn [fst snd]; [unfold two64; lia|]. destruct v as [x|b]; auto.
  exact (fits_sub _ _ _ H Hin).
Qed.

Lemma parse_small : forall fs, fits (enc_fields fs) -> Forall small_field fs -> parse (enc_fields fs) = Some fs.
Proof. intros. apply parse_enc, fields_ok; auto. Qed.

Lemma w_u64_small : forall n v, (0 < n < 100)%N -> (v < two64)%N -> Forall small_field (w_u64 n v).
Proof. intros. unfold w_u64. destruct (v =? 0)%N; constructor; [split; auto|constructor]. Qed.
Lemma w_bytes_small : forall n v, (0 < n < 100)%N -> Forall small_field (w_bytes n v).
Proof. intros. unfold w_bytes. destruct v; constructor; [split; simpl; auto|constructor]. Qed.
Lemma w_msg_small : forall n v, (0 < n < 100)%N -> Forall small_field (w_msg n v).
Proof. intros. unfold w_msg. constructor; [split; simpl; auto|constructor]. Qed.

Lemma r_u64_app : forall n l1 l2 acc, r_u64 n acc (l1 ++ l2) = obind (r_u64 n acc l1) (fun a => r_u64 n a l2).
Proof.
  induction l1 as [|[m v] l1 IH]; intros l2 acc; cbn [app r_u64 obind]; auto.
  destruct (m =? n)%N; [destruct v|]; auto.
Qed.
Lemma r_bytes_app : forall n l1 l2 acc, r_bytes n acc (l1 ++ l2) = obind (r_bytes n acc l1) (fun a => r_bytes n a l2).
Proof.
  induction l1 as [|[m v] l1 IH]; intros l2 acc; cbn [app r_bytes obind]; auto.
  destruct (m =? n)%N; [destruct v|]; auto.
Qed.
Lemma r_u64_w : forall n v, r_u64 n 0 (w_u64 n v) = Some v.
Proof.
  intros. unfold w_u64. destruct (v =? 0)%N eqn:E; cbn [r_u64]; [f_equal; lia|]. now rewrite N.eqb_refl.
Qed.
Lemma r_u64_other : forall n m v acc, (n <> m)%N -> r_u64 n acc (w_u64 m v) = Some acc.
Proof. intros. unfold w_u64. destruct (v =? 0)%N; cbn [r_u64]; auto. now replace (m =? n)%N with false by lia. Qed.
Lemma r_u64_other_b : forall n m v acc, (n <> m)%N -> r_u64 n acc (w_bytes m v) = Some acc.
Proof. intros. unfold w_bytes. destruct v; cbn [r_u64]; auto. now replace (m =? n)%N with false by lia. Qed.
Lemma r_u64_other_m : forall n m v acc, (n <> m)%N -> r_u64 n acc (w_msg m v) = Some acc.
Proof. intros. unfold w_msg. cbn [r_u64]; auto. now replace (m =? n)%N with false by lia. Qed.
Lemma r_bytes_other : forall n m v acc, (n <> m)%N -> r_bytes n acc (w_u64 m v) = Some acc.
Proof. intros. unfold w_u64. destruct (v =? 0)%N; cbn [r_bytes]; auto. now replace (m =? n)%N with false by lia. Qed.
Lemma r_bytes_w : forall n v, exists o, r_bytes n None (w_bytes n v) = Some o /\ orempty o = v.
Proof.
  intros. unfold w_bytes. destruct v; cbn [r_bytes]; [exists None; auto|]. rewrite N.eqb_refl. eexists. split; reflexivity.
Qed.
Lemma r_bytes_m : forall n v acc, r_bytes n acc (w_msg n v) = Some (Some v).
Proof. intros. unfold w_msg. cbn [r_bytes]. now rewrite N.eqb_refl. Qed.

Ltac smalls := first [assumption | repeat (apply Forall_app; split); first [apply w_u64_small; [lia|tauto] | apply w_bytes_small; lia | apply w_msg_small; lia | assumption]].

Definition base_fits (p : option pb_arr) : Prop :=
  match p with Some (PU16 b _) | Some (PU32 b _) => (b < two64)%N | _ => True end.

Lemma arr_rt : forall p, base_fits p -> fits (arr_bytes p) -> arr_parse (arr_bytes p) = Some p.
Proof.
  intros [[b o|b o|v]|] Hb Hf; cbn [base_fits arr_bytes] in *; unfold arr_parse; [| | |reflexivity].
  all: rewrite parse_small by smalls.
  all: assert (Hf2 := fits_sub _ _ _ Hf (or_introl eq_refl)).
  all: unfold w_msg; cbn [obind r_oneof N.leb N.compare Pos.compare Pos.compare_cont andb].
  1,2: rewrite parse_small by smalls;
       cbn [obind N.eqb Pos.eqb]; rewrite r_u64_app, r_u64_w; cbn [obind]; rewrite r_u64_other_b by lia; cbn [obind];
       rewrite r_bytes_app, r_bytes_other by lia; cbn [obind]; destruct (r_bytes_w 2 o) as [x [-> E]]; cbn [obind]; rewrite E; reflexivity.
  rewrite parse_small by smalls. cbn [obind N.eqb Pos.eqb].
  destruct (r_bytes_w 2 v) as [x [-> E]]. cbn [obind]. now rewrite E.
Qed.

Definition pseg_fits (p : option pb_seg) : Prop :=
  match p with
  | Some (PSRange a b) => (a < two64)%N /\ (b < two64)%N
  | Some (PSHoles a b h) => (a < two64)%N /\ (b < two64)%N /\ match h with Some x => base_fits x | None => True end
  | Some (PSBitmap a b _) => (a < two64)%N /\ (b < two64)%N
  | Some (PSSorted x) => base_fits x
  | Some (PSArr x) => base_fits x
  | None => True
  end.


Lemma seg_rt : forall p, pseg_fits p -> fits (seg_bytes p) -> seg_parse (seg_bytes p) = Some p.
Proof.
  intros [[a b|a b h|a b d|x|x]|] Hb Hf; cbn [pseg_fits seg_bytes] in *; unfold seg_parse; [| | | | |reflexivity].
  all: rewrite parse_small by smalls.
  all: assert (Hf2 := fits_sub _ _ _ Hf (or_introl eq_refl)).
  all: unfold w_msg; cbn [obind r_oneof N.leb N.compare Pos.compare Pos.compare_cont andb N.eqb Pos.eqb].
  - rewrite parse_small by smalls. cbn [obind].
    rewrite !r_u64_app, r_u64_w, (r_u64_other 2 1) by lia. cbn [obind].
    rewrite r_u64_w, r_u64_other by lia. cbn [obind]. rewrite r_bytes_app, !r_bytes_other by lia. cbn [obind].
    rewrite r_bytes_other by lia. reflexivity.
  - assert (Ho : Forall small_field (opt_msg 3 h)) by (destruct h; [apply w_msg_small; lia|constructor]).
    rewrite parse_small by smalls. cbn [obind].
    rewrite !r_u64_app, r_u64_w, (r_u64_other 2 1) by lia. cbn [obind].
    rewrite !r_u64_app, r_u64_w, r_u64_other by lia. cbn [obind].
    replace (r_u64 1 a (opt_msg 3 h)) with (Some a) by (destruct h; reflexivity).
    replace (r_u64 2 b (opt_msg 3 h)) with (Some b) by (destruct h; reflexivity). cbn [obind].
    rewrite r_bytes_app, r_bytes_other by lia. cbn [obind]. rewrite r_bytes_app, r_bytes_other by lia. cbn [obind].
    destruct h as [x|]; cbn [opt_msg]; [|reflexivity]. rewrite r_bytes_m. cbn [obind].
    rewrite arr_rt; [reflexivity|tauto|].
    apply (fits_sub _ 3%N _ Hf2). apply in_or_app. right. apply in_or_app. right. now left.
  - rewrite parse_small by smalls. cbn [obind].
    rewrite !r_u64_app, r_u64_w, (r_u64_other 2 1) by lia. cbn [obind].
    rewrite !r_u64_app, r_u64_w, r_u64_other by lia. cbn [obind].
    rewrite !r_u64_other_b by lia. cbn [obind].
    rewrite r_bytes_app, r_bytes_other by lia. cbn [obind]. rewrite r_bytes_app, r_bytes_other by lia. cbn [obind].
    destruct (r_bytes_w 3 d) as [y [-> E]]. cbn [obind]. now rewrite E.
  - rewrite arr_rt; auto.
  - rewrite arr_rt; auto.
Qed.

Lemma r_repeated_msgs : forall n (ms : list (list N)), r_repeated n (flat_map (w_msg n) ms) = Some ms.
Proof.
  induction ms as [|m ms IH]; [reflexivity|]. cbn [flat_map w_msg app r_repeated]. rewrite N.eqb_refl, IH. reflexivity.
Qed.

(* bases of compact arrays are u64 *)
Definition ea_base_fits (a : enc_arr) : Prop :=
  match a with EU16 b _ | EU32 b _ => (b < two64)%N | EU64 _ => True end.
Definition seg_u64 (s : segment) : Prop :=
  match s with Holes _ _ h => ea_base_fits h | Sorted x | Arr x => ea_base_fits x | _ => True end.

Lemma seg_encode_fits : forall s, seg_wf s -> seg_u64 s -> pseg_fits (seg_encode s).
Proof.
  intros [a b|a b h|a b bm|x|x] Hw Hu; simpl in *.
  - lia.
  - destruct Hw as [H _]. destruct h; simpl in *; repeat split; auto; lia.
  - lia.
  - destruct x; simpl in *; auto.
  - destruct x; simpl in *; auto.
Qed.

Theorem row_ids_bytes_roundtrip : forall q, seq_wf q -> Forall seg_u64 q -> fits (write_row_ids q) ->
  read_row_ids (write_row_ids q) = Some q.
Proof.
  intros q Hw Hu Hf. unfold read_row_ids. unfold write_row_ids in *.
  set (fs := flat_map (fun s => w_msg 1 (seg_bytes s)) (seq_encode q)) in *.
  assert (Efs : fs = flat_map (w_msg 1) (map seg_bytes (seq_encode q))).
  { unfold fs. generalize (seq_encode q). induction l; simpl; auto. now rewrite IHl. }
  rewrite parse_small; auto.
  2:{ unfold fs. generalize (seq_encode q). induction l; simpl; constructor; auto. split; simpl; auto. lia. }
  cbn [obind]. rewrite Efs, r_repeated_msgs. cbn [obind].
  assert (Hseg : sequence_opt (map seg_parse (map seg_bytes (seq_encode q))) = Some (seq_encode q)).
  { assert (Hin : forall s, In s (seq_encode q) -> seg_parse (seg_bytes s) = Some s).
    { intros s Hs. apply seg_rt.
      - unfold seq_encode in Hs. apply in_map_iff in Hs. destruct Hs as [t [<- Ht]].
        apply seg_encode_fits; [|rewrite Forall_forall in Hu; auto].
        unfold seq_wf in Hw. rewrite Forall_forall in Hw. auto.
      - apply (fits_sub fs 1%N); auto. unfold fs. apply in_flat_map. exists s. split; auto. now left. }
    revert Hin. generalize (seq_encode q). induction l as [|s l IH]; intros Hin; [reflexivity|].
    cbn [map sequence_opt]. rewrite (Hin s) by now left. rewrite IH by (intros; apply Hin; now right). reflexivity. }
  rewrite Hseg. cbn [obind]. now apply seq_serde.
Qed.

Example wire_ex : let q := [Range 3 300; Holes 0 10 (EU16 5 [0]%N); BMap 8 20 {| bm_data := [255; 3]%N; bm_len := 12 |}; Arr (EU32 7 [70000; 0]%N)] in
  read_row_ids (write_row_ids q) = Some q /\ firstn 8 (write_row_ids q) = [10; 7; 10; 5; 8; 3; 16; 172]%N.
Proof. vm_compute. auto. Qed.

Example wire_hyps_ex : let q := [Range 3 300; Holes 0 10 (EU16 5 [0]%N)] in
  seq_wf q /\ Forall seg_u64 q /\ fits (write_row_ids q).
Proof.
  cbn zeta. split; [|split].
  - constructor; [cbn; unfold two64; lia|]. constructor; [|constructor]. cbn. unfold two64, u16_max.
    split; [lia|]. split.
    + split; [constructor; [lia|constructor]|]. split; [constructor; [lia|constructor]|]. intros _. now left.
    + split; [split; [tauto|exact I]|]. constructor; [lia|constructor].
  - constructor; [exact I|]. constructor; [|constructor]. cbn. unfold two64. lia.
  - vm_compute. reflexivity.
Qed.
