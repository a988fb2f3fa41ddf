(* Whole files: what is written can be opened, and everything is found where the opened metadata says. *)
From Coq Require Import List Arith NArith ZArith Bool Lia ZifyBool ZifyN ZifyNat.
From Verif Require Import Lib PageModel SerdeModel SerdeProofs BitsModel File2Model File2Proofs File2Data.
From Verif Require BlobModel BlobProofs.
Import ListNotations.
Local Open Scope nat_scope.

(* pages of the kind of the version *)
Definition kind_ok (v21 : bool) (e : epage) : Prop := match ep_enc e with Legacy _ => v21 = false | Structural _ => v21 = true end.
(* what an opened file should say *)
Definition describes (file : list N) (os : list op) (fs : list fwriter) (desc : list N) (ncols : nat) (o : opened) : Prop :=
  op_desc o = desc /\ length (op_cols o) = ncols /\ length (all_cols fs) = ncols /\
  (forall k c, nth_error (op_cols o) k = Some c -> Forall2 (stored file) (cm_pages c) (pages_for k (all_pages os fs)) /\ exists f, nth_error (all_cols fs) k = Some f /\ cm_enc c = Some (fc_enc f)) /\
  exists q rest, op_glob o = q :: rest /\ holds file q desc /\ Forall2 (holds file) rest (op_globals os).
Definition within (file : list N) (os : list op) (ncols : nat) : Prop := (N.of_nat (length file) < 2 ^ 64 /\ N.of_nat ncols < 2 ^ 28 /\ N.of_nat (S (length (op_globals os))) < 2 ^ 32)%N.
Lemma Forall2_same_length {A B} : forall (P : A -> B -> Prop) l m, Forall2 P l m -> length l = length m.
Proof. induction 1; cbn; congruence. Qed.
Lemma holds_pair : forall out q b, (N.of_nat (length out) < 2 ^ 64)%N -> holds out q b -> pair_ok q.
Proof. intros out q b L H. unfold holds, bytes_of, sub_bytes in H. destruct ((_ <=? _) && (_ <=? _))%N eqn:E; [|discriminate H]. split; lia. Qed.
Lemma pages_kind : forall v21 out ps k c, Forall (kind_ok v21) ps -> Forall2 (stored out) (cm_pages c) (pages_for k ps) -> Forall (fun p => match pg_enc p with Legacy _ => v21 = false | Structural _ => v21 = true end) (cm_pages c).
Proof.
  intros v21 out ps k c F S. assert (F' : Forall (kind_ok v21) (pages_for k ps)). { apply Forall_forall. intros e He. apply filter_In in He as [He _]. rewrite Forall_forall in F. auto. }
  induction S as [|p e l m H S IH]; [constructor|]. apply Forall_cons_iff in F' as [F0 F']. constructor; [|auto]. destruct H as [-> _]. exact F0.
Qed.
Lemma columns_state_ok : forall v21 w n ps gs cs, inv w n ps gs cs -> length cs = n -> Forall (kind_ok v21) ps -> (v21 = true -> al_state w) -> cols_ok (if v21 then F21 else F20) (w_cols w) = true.
Proof.
  intros v21 w n ps gs cs (L & C & _) LC F A. unfold cols_ok. apply forallb_forall. intros c Hc. apply In_nth_error in Hc as [k Hk]. destruct (C k c Hk) as [C1 C2].
  assert (Kn : k < length cs) by (assert (k < length (w_cols w)) by (apply nth_error_Some; congruence); lia). apply nth_error_Some in Kn. destruct (nth_error cs k) as [f|]; [|congruence]. destruct C2 as [-> _]. rewrite andb_true_r.
  pose proof (pages_kind v21 _ _ _ _ F C1) as PK. apply forallb_forall. intros p Hp. unfold page_ok. rewrite Forall_forall in PK. specialize (PK p Hp). apply andb_true_intro. split.
  - destruct (pg_enc p); rewrite PK; reflexivity.
  - apply forallb_forall. intros [o s] Hq. cbn [fst]. destruct v21; [|reflexivity]. destruct (A eq_refl) as (_ & A2 & _). rewrite Forall_forall in A2. specialize (A2 c (nth_error_In _ _ Hk)). rewrite Forall_forall in A2. specialize (A2 p Hp). apply in_combine_l in Hq. rewrite Forall_forall in A2. specialize (A2 o Hq).
    unfold al in A2. cbn [aligned_ok]. lia.
Qed.
Section Codec.
  Variable enc_col : cmeta -> list N.
  Variable dec_col : list N -> option cmeta.
  Hypothesis codec : forall c, dec_col (enc_col c) = Some c.

  Lemma written : forall v21 ncols os fs desc file, write_file enc_col v21 ncols os fs desc = Some file ->
    exists w, inv w ncols (all_pages os fs) (op_globals os) (all_cols fs) /\ length (all_cols fs) = ncols /\ ((Forall (fun f => fw_external f = []) fs) -> al_state w) /\
    file = put_footer enc_col (w_out w ++ desc) ((pos_of (w_out w), N.of_nat (length desc)) :: w_glob w) (w_cols w) (N.of_nat ncols) (numbers v21).
  Proof.
    intros v21 ncols os fs desc file H. unfold write_file in H. destruct (steps _ os) as [w0|] eqn:E0; [|discriminate H]. cbn [obind] in H. destruct (finish_writers 0 w0 fs) as [w|] eqn:E1; [|discriminate H]. cbn [obind] in H. injection H as <-. exists w.
    pose proof (steps_inv _ _ _ _ _ _ _ (initial_inv ncols) E0) as I0. cbn [app] in I0. destruct (finish_writers_inv _ _ _ _ _ _ _ _ I0 eq_refl E1) as [I1 L1]. cbn [app] in *. split; [exact I1|]. split; [exact L1|]. split; [|reflexivity].
    intros F. eapply finish_writers_al; [|exact F|exact E1]. eapply steps_al; [|exact E0]. split; [reflexivity|]. split; [|constructor]. cbn [w_cols]. apply Forall_forall. intros c Hc. apply repeat_spec in Hc. subst c. constructor.
  Qed.
  Lemma file_exact_s : forall v21 ncols os fs desc file block, 40 <= block -> write_file enc_col v21 ncols os fs desc = Some file -> within file os ncols ->
    Forall (kind_ok v21) (all_pages os fs) -> (v21 = true -> Forall (fun f => fw_external f = []) fs) ->
    exists o, open_file dec_col block file = Some o /\ describes file os fs desc ncols o /\ op_version o = if v21 then F21 else F20.
  Proof.
    intros v21 ncols os fs desc file block BL H (W1 & W2 & W3) K X. destruct (written _ _ _ _ _ _ H) as (w & I & LC & A & EF). pose proof I as (L & C & G).
    assert (EX : exists x, file = w_out w ++ x). { rewrite EF, (put_footer_eq enc_col dec_col), <- !app_assoc. eexists. reflexivity. } destruct EX as [x EX].
    assert (EX2 : exists x, file = w_out w ++ desc ++ x). { rewrite EF, (put_footer_eq enc_col dec_col), <- !app_assoc. eexists. reflexivity. } destruct EX2 as [x2 EX2].
    eexists. split; [|split; [|]].
    - rewrite EF. rewrite <- L. apply open_footer.
      + exact BL.
      + apply Forall_forall. intros c _. apply codec.
      + rewrite L, <- EF. exact W1.
      + cbn [length]. rewrite (Forall2_same_length _ _ _ G). exact W3.
      + rewrite L. exact W2.
      + clear - G W1 EX. assert (B : (N.of_nat (length (w_out w)) < 2 ^ 64)%N) by (rewrite EX, app_length in W1; lia). induction G; constructor; auto. eapply holds_pair; eauto.
      + destruct v21; [|apply Forall_forall; reflexivity]. destruct (A (X eq_refl)) as (A1 & _ & A3). unfold al in *. constructor; [cbn [fst aligned_ok]; lia|]. eapply Forall_impl; [|exact A3]. cbn [aligned_ok]. intros q Hq. lia.
      + eapply columns_state_ok; eauto.
    - split; [reflexivity|]. split; [exact L|]. split; [exact LC|]. split.
      + intros k c Hc. cbn [op_cols] in Hc. destruct (C k c Hc) as [C1 C2]. split; [rewrite EX; eapply Forall2_mono; [|exact C1]; intros; now apply stored_ext|].
        assert (Kn : k < length (all_cols fs)) by (assert (k < length (w_cols w)) by (apply nth_error_Some; congruence); lia). apply nth_error_Some in Kn. destruct (nth_error (all_cols fs) k) as [f|]; [|congruence]. exists f. split; [reflexivity|apply C2].
      + do 2 eexists. split; [reflexivity|]. split; [rewrite EX2; apply holds_here|]. rewrite EX. eapply Forall2_mono; [|exact G]. intros; now apply holds_ext.
    - reflexivity.
  Qed.
  (* the buffers of a column *)
  Lemma column_buffers_exact_s : forall v21 ncols os fs desc file block o k c f, 40 <= block -> write_file enc_col v21 ncols os fs desc = Some file -> within file os ncols ->
    Forall (kind_ok v21) (all_pages os fs) -> (v21 = true -> Forall (fun f => fw_external f = []) fs) -> open_file dec_col block file = Some o ->
    nth_error (op_cols o) k = Some c -> nth_error (all_cols fs) k = Some f -> tight (fc_bufs f) -> length (cm_offs c) = length (fc_bufs f) /\ length (cm_sizes c) = length (fc_bufs f) /\ Forall2 (holds file) (combine (cm_offs c) (cm_sizes c)) (fc_bufs f).
  Proof.
    intros v21 ncols os fs desc file block o k c f BL H (W1 & W2 & W3) K X HO Hc Hf T. destruct (written _ _ _ _ _ _ H) as (w & I & LC & A & EF). pose proof I as (L & C & G).
    assert (EX : exists x, file = w_out w ++ x). { rewrite EF, (put_footer_eq enc_col dec_col), <- !app_assoc. eexists. reflexivity. } destruct EX as [x EX].
    assert (Q : op_cols o = w_cols w).
    { rewrite EF in HO. rewrite <- L in HO. rewrite open_footer in HO; [injection HO as <-; reflexivity| | | | | | | |].
      + exact BL.
      + apply Forall_forall. intros c' _. apply codec.
      + rewrite L, <- EF. exact W1.
      + cbn [length]. rewrite (Forall2_same_length _ _ _ G). exact W3.
      + rewrite L. exact W2.
      + clear - G W1 EX. assert (B : (N.of_nat (length (w_out w)) < 2 ^ 64)%N) by (rewrite EX, app_length in W1; lia). induction G; constructor; auto. eapply holds_pair; eauto.
      + destruct v21; [|apply Forall_forall; reflexivity]. destruct (A (X eq_refl)) as (A1 & _ & A3). unfold al in *. constructor; [cbn [fst aligned_ok]; lia|]. eapply Forall_impl; [|exact A3]. cbn [aligned_ok]. intros q Hq. lia.
      + eapply columns_state_ok; eauto. }
    rewrite Q in Hc. destruct (C k c Hc) as [_ C2]. rewrite Hf in C2. destruct C2 as (_ & C3 & C4 & C5). split; [exact C3|]. split; [now rewrite C4, map_length|]. rewrite EX. eapply Forall2_mono; [|exact (C5 T)]. intros; now apply holds_ext.
  Qed.
  (* a file can be written when every page is for one of its columns and every column is finished *)
  Lemma upd_some {A} : forall k (f : A -> A) l, k < length l -> exists l', upd k f l = Some l' /\ length l' = length l.
  Proof. induction k as [|k IH]; intros f [|x l] H; cbn in *; try lia; [eexists; split; reflexivity|]. destruct (IH f l) as (l' & -> & L); [lia|]. eexists. split; [reflexivity|]. cbn. lia. Qed.
  Lemma write_page_some : forall w p, ep_col p < length (w_cols w) -> exists w', write_page w p = Some w' /\ length (w_cols w') = length (w_cols w).
  Proof. intros w p H. unfold write_page. destruct (put_buffers (w_out w) (ep_bufs p)) as [[o s] out]. match goal with |- context [upd _ ?f _] => destruct (upd_some (ep_col p) f (w_cols w) H) as (l' & -> & L) end. eexists. split; [reflexivity|]. exact L. Qed.
  Lemma write_pages_some : forall qs w, Forall (fun p => ep_col p < length (w_cols w)) qs -> exists w', write_pages w qs = Some w' /\ length (w_cols w') = length (w_cols w).
  Proof.
    induction qs as [|q qs IH]; intros w F; [eexists; split; reflexivity|]. apply Forall_cons_iff in F as [F0 F]. destruct (write_page_some w q F0) as (w1 & E & L). cbn [write_pages]. rewrite E. cbn [obind]. rewrite <- L in F. destruct (IH w1 F) as (w2 & E2 & L2). exists w2. split; [exact E2|lia].
  Qed.
  Lemma steps_some : forall os w, Forall (fun p => ep_col p < length (w_cols w)) (op_pages os) -> exists w', steps w os = Some w' /\ length (w_cols w') = length (w_cols w).
  Proof.
    induction os as [|o os IH]; intros w F; [eexists; split; reflexivity|]. unfold op_pages in *. cbn [flat_map] in F. apply Forall_app in F as [F0 F]. assert (Q : exists w1, step w o = Some w1 /\ length (w_cols w1) = length (w_cols w)).
    { destruct o as [bufs|p|b]; [eexists; split; reflexivity|cbn [step]; apply write_page_some; now apply Forall_cons_iff in F0 as [F0 _]|eexists; split; reflexivity]. }
    destruct Q as (w1 & E & L). cbn [steps]. rewrite E. cbn [obind]. rewrite <- L in F. destruct (IH w1 F) as (w2 & E2 & L2). exists w2. split; [exact E2|lia].
  Qed.
  Lemma finish_columns_some : forall cs idx w, Forall (fun p => ep_col p < length (w_cols w)) (flat_map fc_pages cs) -> idx + length cs <= length (w_cols w) -> exists w', finish_columns idx w cs = Some (idx + length cs, w') /\ length (w_cols w') = length (w_cols w).
  Proof.
    induction cs as [|c cs IH]; intros idx w F B; [exists w; cbn; rewrite Nat.add_0_r; auto|]. cbn [flat_map length] in *. apply Forall_app in F as [F0 F]. destruct (write_pages_some _ w F0) as (w1 & E1 & L1). cbn [finish_columns]. unfold finish_column. rewrite E1. cbn [obind].
    destruct (put_column_buffers (pos_of (w_out w1)) (w_out w1) (fc_bufs c)) as [[o s] out]. match goal with |- context [upd idx ?f ?l] => destruct (upd_some idx f l) as (l' & -> & L2); [lia|] end. cbn [omap obind].
    match goal with |- context [finish_columns (S idx) ?w2 cs] => destruct (IH (S idx) w2) as (w3 & E3 & L3); [cbn [w_cols]; rewrite L2, L1; exact F|cbn [w_cols]; lia|] end. exists w3. cbn [w_cols] in L3. split; [rewrite E3; f_equal; f_equal; lia|lia].
  Qed.
  Lemma file_writes_s : forall v21 ncols os fs desc, Forall (fun p => ep_col p < ncols) (all_pages os fs) -> length (all_cols fs) = ncols -> exists file, write_file enc_col v21 ncols os fs desc = Some file.
  Proof.
    intros v21 ncols os fs desc F L. unfold all_pages in F. apply Forall_app in F as [F1 F2]. unfold write_file. set (w0 := {| w_out := []; w_cols := repeat initial_column ncols; w_glob := [] |}).
    assert (L0 : length (w_cols w0) = ncols) by apply repeat_length. rewrite <- L0 in F1. destruct (steps_some os w0 F1) as (w & E & L1). rewrite E. cbn [obind].
    assert (Q : forall fs idx w, Forall (fun p => ep_col p < length (w_cols w)) (flat_map fc_pages (all_cols fs)) -> idx + length (all_cols fs) = length (w_cols w) -> exists w', finish_writers idx w fs = Some w').
    { clear. induction fs as [|f fs IH]; intros idx w F L; cbn [finish_writers].
      - cbn in L. replace (idx =? length (w_cols w)) with true by lia. eauto.
      - unfold all_cols in *. cbn [flat_map] in *. rewrite flat_map_app in F. apply Forall_app in F as [F1 F2]. rewrite app_length in L.
        match goal with |- context [finish_columns idx ?w2 _] => destruct (finish_columns_some (fw_cols f) idx w2 F1) as (w3 & E3 & L3); [cbn [w_cols]; lia|] end. rewrite E3. cbn [obind fst snd]. cbn [w_cols] in L3. apply IH; [rewrite L3; exact F2|lia]. }
    destruct (Q fs 0 w) as (w' & ->); [rewrite L1, L0; exact F2|lia|]. cbn [obind]. eauto.
  Qed.
  (* encoded batches, with and without a descriptor *)
  Lemma batch_exact_s : forall data cols desc, cols_ok F20 cols = true -> (N.of_nat (length cols) < 2 ^ 28)%N -> (N.of_nat (length (concat_footer enc_col data cols desc)) < 2 ^ 64)%N ->
    match desc with
    | Some d => read_self_described dec_col (concat_footer enc_col data cols desc) = Some (d, cols)
    | None => read_mini dec_col (concat_footer enc_col data cols desc) = Some cols
    end /\ forall q b, holds data q b -> holds (concat_footer enc_col data cols desc) q b.
  Proof.
    intros data cols desc CO LC LF. split.
    - assert (D : Forall (fun c => dec_col (enc_col c) = Some c) cols) by (apply Forall_forall; intros c _; apply codec). destruct desc as [d|]; [rewrite described_footer by assumption|rewrite mini_footer by assumption]; now rewrite CO.
    - intros q b Hq. destruct desc as [d|]; cbn [concat_footer]; rewrite (put_footer_eq enc_col dec_col), <- ?app_assoc; now apply holds_ext.
  Qed.
End Codec.
Theorem file_exact : forall enc_col dec_col, (forall c, dec_col (enc_col c) = Some c) -> forall v21 ncols os fs desc file block, 40 <= block -> write_file enc_col v21 ncols os fs desc = Some file -> within file os ncols ->
  Forall (kind_ok v21) (all_pages os fs) -> (v21 = true -> Forall (fun f => fw_external f = []) fs) ->
  exists o, open_file dec_col block file = Some o /\ describes file os fs desc ncols o /\ op_version o = if v21 then F21 else F20.
Proof. intros enc_col dec_col codec. apply file_exact_s; exact codec. Qed.
Theorem column_buffers_exact : forall enc_col dec_col, (forall c, dec_col (enc_col c) = Some c) -> forall v21 ncols os fs desc file block o k c f, 40 <= block -> write_file enc_col v21 ncols os fs desc = Some file -> within file os ncols ->
  Forall (kind_ok v21) (all_pages os fs) -> (v21 = true -> Forall (fun f => fw_external f = []) fs) -> open_file dec_col block file = Some o ->
  nth_error (op_cols o) k = Some c -> nth_error (all_cols fs) k = Some f -> tight (fc_bufs f) -> length (cm_offs c) = length (fc_bufs f) /\ length (cm_sizes c) = length (fc_bufs f) /\ Forall2 (holds file) (combine (cm_offs c) (cm_sizes c)) (fc_bufs f).
Proof. intros enc_col dec_col codec. apply column_buffers_exact_s; exact codec. Qed.
Theorem file_writes : forall enc_col v21 ncols os fs desc, Forall (fun p => ep_col p < ncols) (all_pages os fs) -> length (all_cols fs) = ncols -> exists file, write_file enc_col v21 ncols os fs desc = Some file.
Proof. intros enc_col. apply file_writes_s. Qed.
Theorem batch_exact : forall enc_col dec_col, (forall c, dec_col (enc_col c) = Some c) -> forall data cols desc, cols_ok F20 cols = true -> (N.of_nat (length cols) < 2 ^ 28)%N -> (N.of_nat (length (concat_footer enc_col data cols desc)) < 2 ^ 64)%N ->
  match desc with
  | Some d => read_self_described dec_col (concat_footer enc_col data cols desc) = Some (d, cols)
  | None => read_mini dec_col (concat_footer enc_col data cols desc) = Some cols
  end /\ forall q b, holds data q b -> holds (concat_footer enc_col data cols desc) q b.
Proof. intros enc_col dec_col codec. apply batch_exact_s; exact codec. Qed.

(* ---- external buffers ---- *)
(* the positions that OutOfLineBuffers gives out for [bufs] *)
Fixpoint positions (o : BlobModel.outofline N) (bufs : list (list N)) : list N :=
  match bufs with [] => [] | b :: t => let '(p, o') := BlobModel.add_buffer o b in N.of_nat p :: positions o' t end.
Definition given (out : list N) (bufs : list (list N)) : list (N * N) := combine (positions (BlobModel.oo_new (length out) BlobModel.PAGE_BUFFER_ALIGNMENT) bufs) (map (fun b => N.of_nat (length b)) bufs).
Theorem external_exact : forall bufs w w', step w (OExternal bufs) = Some w' -> Forall2 (holds (w_out w')) (given (w_out w) bufs) bufs.
Proof.
  intros bufs w w' H. injection H as <-. cbn [w_out]. generalize (w_out w) as out. clear w. unfold given.
  assert (G : forall bufs out o, BlobModel.oo_position o = length out -> BlobModel.oo_alignment o = BlobModel.PAGE_BUFFER_ALIGNMENT -> Forall2 (holds (fold_left put_buffer bufs out)) (combine (positions o bufs) (map (fun b => N.of_nat (length b)) bufs)) bufs).
  { clear. induction bufs as [|b bufs IH]; intros out o P A; [constructor|]. cbn [positions BlobModel.add_buffer map combine fold_left]. constructor.
    - destruct (fold_put bufs (put_buffer out b)) as [x ->]. rewrite put_buffer_eq, <- !app_assoc, P. apply holds_here.
    - apply IH; cbn [BlobModel.oo_position BlobModel.oo_alignment]; [|exact A]. rewrite P, A, put_buffer_eq, !app_length. unfold padding. rewrite repeat_length. lia. }
  intros out. apply G; reflexivity.
Qed.

(* ---- where it is false ---- *)
(* two column buffers: the second one is looked for inside the padding of the first *)
Theorem column_buffers_refuted : exists ncols fs f k c, forall enc_col dec_col desc block, (forall c, dec_col (enc_col c) = Some c) -> (N.of_nat (length (enc_col c)) + N.of_nat (length desc) < 2 ^ 63)%N -> 40 <= block ->
  exists file o, write_file enc_col false ncols [] fs desc = Some file /\ open_file dec_col block file = Some o /\ nth_error (all_cols fs) k = Some f /\ nth_error (op_cols o) k = Some c /\
  fc_bufs f = [[1]; [2]]%N /\ map (bytes_of file) (combine (cm_offs c) (cm_sizes c)) = [Some [1]; Some [72]]%N.
Proof.
  exists 1, [{| fw_external := []; fw_cols := [{| fc_pages := []; fc_bufs := [[1]; [2]]%N; fc_enc := [] |}] |}], {| fc_pages := []; fc_bufs := [[1]; [2]]%N; fc_enc := [] |}, 0, {| cm_pages := []; cm_offs := [0; 1]%N; cm_sizes := [1; 1]%N; cm_enc := Some [] |}.
  intros enc_col dec_col desc block CD SZ BL. set (fs := [{| fw_external := []; fw_cols := [{| fc_pages := []; fc_bufs := [[1]; [2]]%N; fc_enc := [] |}] |}]). set (c := {| cm_pages := []; cm_offs := [0; 1]%N; cm_sizes := [1; 1]%N; cm_enc := Some [] |}) in *.
  set (out := put_buffer (put_buffer [] [1]%N) [2]%N). exists (put_footer enc_col (out ++ desc) [(pos_of out, N.of_nat (length desc))] [c] (N.of_nat 1) (numbers false)). eexists. split; [reflexivity|].
  assert (LO : length out = 128) by reflexivity.
  split; [apply (open_footer enc_col dec_col block out desc [] [c] false)|split; [reflexivity|split; [reflexivity|split; [reflexivity|]]]].
  - exact BL.
  - constructor; [apply CD|constructor].
  - rewrite (put_footer_eq enc_col dec_col). rewrite !app_length, footer_length, !pairs_length, LO. cbn [metas_at length flat_map]. rewrite app_nil_r. change (2 ^ 63)%N with 9223372036854775808%N in SZ. change (2 ^ 64)%N with 18446744073709551616%N. lia.
  - reflexivity.
  - reflexivity.
  - constructor.
  - repeat constructor.
  - reflexivity.
  - rewrite (put_footer_eq enc_col dec_col), <- !app_assoc. assert (H1 : bytes_of out (0, 1)%N = Some [1]%N) by reflexivity. assert (H2 : bytes_of out (1, 1)%N = Some [72]%N) by reflexivity. cbn [cm_offs cm_sizes c combine map]. unfold bytes_of in *. now rewrite (sub_ext _ _ _ _ _ H1), (sub_ext _ _ _ _ _ H2).
Qed.
(* two external buffers at the end: the second one is not where its position says *)
Theorem finish_external_refuted : exists fs bufs, flat_map fw_external fs = bufs /\ bufs = [[1]; [2]]%N /\ forall enc_col desc, desc = repeat 9%N 70 ->
  exists file, write_file enc_col false 0 [] fs desc = Some file /\ map (bytes_of file) (given [] bufs) = [Some [1]; Some [9]]%N.
Proof.
  exists [{| fw_external := [[1]; [2]]%N; fw_cols := [] |}], [[1]; [2]]%N. split; [reflexivity|]. split; [reflexivity|]. intros enc_col desc ->. set (o := [1; 2]%N ++ repeat 9%N 70).
  exists (put_footer enc_col o [(2, 70)]%N [] 0%N (numbers false)). split; [reflexivity|].
  rewrite (put_footer_eq enc_col (fun _ => None)). assert (P : given [] [[1]; [2]]%N = [(0, 1); (64, 1)]%N) by (vm_compute; reflexivity). rewrite P. cbn [map].
  assert (H1 : bytes_of o (0, 1)%N = Some [1]%N) by reflexivity. assert (H2 : bytes_of o (64, 1)%N = Some [9]%N) by reflexivity.
  unfold bytes_of in *. now rewrite (sub_ext _ _ _ _ _ H1), (sub_ext _ _ _ _ _ H2).
Qed.
(* a file of version 2.1 whose last external buffer is not a multiple of 64 bytes cannot be opened *)
Lemma open_misaligned : forall enc_col dec_col block out desc cols, 40 <= block -> (pos_of out mod 64 <> 0)%N -> let g := [(pos_of out, N.of_nat (length desc))] in
  let file := put_footer enc_col (out ++ desc) g cols (N.of_nat (length cols)) (numbers true) in (N.of_nat (length file) < 2 ^ 64)%N -> (N.of_nat (length cols) < 2 ^ 28)%N -> open_file dec_col block file = None.
Proof.
  intros enc_col dec_col block out desc cols BL MA g file LF LC.
  set (o1 := out ++ desc) in *. set (M := flat_map enc_col cols). set (C := flat_map pair_bytes (metas_at enc_col (pos_of o1) cols)). set (G := flat_map pair_bytes g). set (f := footer_of enc_col o1 g cols (N.of_nat (length cols)) (numbers true)).
  assert (EF : file = o1 ++ (M ++ C) ++ G ++ footer_bytes f) by (apply (put_footer_eq enc_col dec_col)).
  assert (FL : length file = length out + length desc + length M + length C + length G + 40) by (rewrite EF; unfold o1; rewrite !app_length, footer_length; lia).
  assert (FO : footer_ok f).
  { unfold f, footer_ok, footer_of, pos_of. cbn [ft_meta ft_cmo ft_gbo ft_nglob ft_ncols ft_major ft_minor length g fst snd numbers]. fold (pos_of o1) M C. unfold o1. rewrite !app_length.
    change (2 ^ 28)%N with 268435456%N in LC. change (2 ^ 32)%N with 4294967296%N in *. change (2 ^ 16)%N with 65536%N. change (2 ^ 64)%N with 18446744073709551616%N in *. unfold pos_of. rewrite ?app_length. repeat split; lia. }
  unfold open_file.
  assert (ET : exists x, read_tail block file = x ++ footer_bytes f).
  { unfold read_tail. exists (skipn (length file - block) (o1 ++ (M ++ C) ++ G)). rewrite EF at 2. rewrite (app_assoc (M ++ C)), (app_assoc o1), skipn_app. f_equal.
    match goal with |- skipn ?n _ = _ => replace n with 0; [reflexivity|] end. rewrite FL. unfold o1. rewrite !app_length. lia. }
  destruct ET as [x ET]. rewrite ET at 1. rewrite footer_read by exact FO. cbn [obind]. unfold f at 1 2. cbn [footer_of ft_major ft_minor numbers fst snd version_of obind].
  assert (PG' : ft_gbo f = N.of_nat (length (o1 ++ M ++ C))) by reflexivity.
  rewrite tail_from_ok by (rewrite PG', FL; unfold o1; rewrite !app_length; lia). cbn [obind].
  assert (SG : skipn (N.to_nat (ft_gbo f)) file = [] ++ G ++ footer_bytes f). { rewrite PG', Nat2N.id, EF, (app_assoc o1 (M ++ C)). now apply skipn_pre. }
  rewrite SG. change (N.to_nat (ft_nglob f)) with 1. unfold G, g. cbn [flat_map decode_gbo]. rewrite <- app_assoc. cbn [app].
  destruct (pair_read [] (pos_of out, N.of_nat (length desc)) (footer_bytes f) 0%N eq_refl) as [R1 _]; [split; cbn [fst snd]; unfold pos_of; lia|]. cbn [app] in R1. rewrite R1. cbn [obind fst aligned_ok]. now replace (pos_of out mod 64 =? 0)%N with false by lia.
Qed.
Theorem finish_external_21_refuted : exists fs, forall enc_col dec_col desc block, (N.of_nat (length desc) < 2 ^ 63)%N -> 40 <= block ->
  exists file, write_file enc_col true 0 [] fs desc = Some file /\ open_file dec_col block file = None.
Proof.
  exists [{| fw_external := [[1]]%N; fw_cols := [] |}]. intros enc_col dec_col desc block SZ BL. exists (put_footer enc_col ([1]%N ++ desc) [(pos_of [1]%N, N.of_nat (length desc))] [] 0%N (numbers true)). split; [reflexivity|].
  apply (open_misaligned enc_col dec_col block [1]%N desc []); [exact BL|discriminate| |reflexivity].
  rewrite (put_footer_eq enc_col dec_col). rewrite !app_length, footer_length, !pairs_length. cbn [metas_at length flat_map app]. change (2 ^ 63)%N with 9223372036854775808%N in SZ. change (2 ^ 64)%N with 18446744073709551616%N. lia.
Qed.
(* an encoded batch of version 2.1 cannot be read: its footer says 2.0 *)
Theorem batch_21_refuted : exists cols, cols_ok F21 cols = true /\ forall enc_col dec_col data d, (forall c, dec_col (enc_col c) = Some c) ->
  (N.of_nat (length (concat_footer enc_col data cols (Some d))) < 2 ^ 64)%N -> read_mini dec_col (concat_footer enc_col data cols None) = None /\ read_self_described dec_col (concat_footer enc_col data cols (Some d)) = None.
Proof.
  exists [{| cm_pages := [{| pg_offs := [0]%N; pg_sizes := [4]%N; pg_enc := Structural []; pg_rows := 1%N; pg_prio := 0%N |}]; cm_offs := []; cm_sizes := []; cm_enc := Some [] |}]. split; [reflexivity|]. intros enc_col dec_col data d CD SZ.
  assert (SZ2 : forall c, (N.of_nat (length (concat_footer enc_col data [c] None)) <= N.of_nat (length (concat_footer enc_col data [c] (Some d))))%N).
  { intros c. unfold concat_footer. rewrite !(put_footer_eq enc_col dec_col), !app_length, !footer_length, !pairs_length. cbn [metas_at length]. lia. }
  split; [rewrite mini_footer|rewrite described_footer]; try reflexivity; try (constructor; [apply CD|constructor]); [|exact SZ]. eapply N.le_lt_trans; [apply SZ2|exact SZ].
Qed.
