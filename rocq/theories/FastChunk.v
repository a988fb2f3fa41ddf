(* Bit-packed mini blocks: widths, chunks and pages. *)
From Coq Require Import List Arith NArith ZArith Bool Lia.
From Verif Require Import Lib SerdeModel SerdeProofs RepDefModel FullZipModel FullZipProofs FullZipRead FullZipPage FullZipVar MiniModel MiniProofs MiniSched MiniBytes MiniPage MiniRead MiniString FastModel FastProofs.
Import ListNotations.
Local Open Scope nat_scope.

(* ---- widths ---- *)
Lemma lt_pow_bits : forall x w, (x < 2 ^ N.of_nat w)%N <-> forall b, w <= b -> tb x b = false.
Proof.
  intros x w. split; [intros H b L; apply tb_high with w; auto|]. intros H. replace x with (x mod 2 ^ N.of_nat w)%N; [apply N.mod_lt, N.pow_nonzero; discriminate|]. apply tb_ext. intros b. rewrite tb_mod. destruct (Nat.ltb_spec b w); [reflexivity|]. symmetry. apply H. lia.
Qed.
Lemma size_iff : forall x w, N.to_nat (N.size x) <= w <-> (x < 2 ^ N.of_nat w)%N.
Proof.
  intros x w. destruct (N.eq_dec x 0) as [->|D].
  - cbn [N.size]. split; [intros _; assert (Q := N.pow_nonzero 2 (N.of_nat w)); lia|lia].
  - rewrite N.size_log2 by exact D. rewrite N.log2_lt_pow2 by lia. lia.
Qed.
Lemma fold_lor_bits : forall c a b, tb (fold_left N.lor c a) b = tb a b || existsb (fun x => tb x b) c.
Proof. induction c as [|x c IH]; intros a b; cbn [fold_left existsb]; [now rewrite orb_false_r|]. rewrite IH, tb_lor, orb_assoc. reflexivity. Qed.
(* the width of a chunk is the least that holds its values *)
Theorem width_least : forall c w, chunk_width c <= w <-> Forall (fun x => (x < 2 ^ N.of_nat w)%N) c.
Proof.
  intros c w. unfold chunk_width. rewrite size_iff, lt_pow_bits, Forall_forall. split.
  - intros H x X. apply lt_pow_bits. intros b L. specialize (H b L). rewrite fold_lor_bits in H. apply orb_false_iff in H as [_ H]. destruct (tb x b) eqn:E; [|reflexivity]. assert (Q : existsb (fun x => tb x b) c = true) by (apply existsb_exists; eauto). congruence.
  - intros H b L. rewrite fold_lor_bits. unfold tb at 1. rewrite N.bits_0. cbn [orb]. destruct (existsb (fun x => tb x b) c) eqn:E; [|reflexivity]. apply existsb_exists in E as [x [X E]]. specialize (H x X). rewrite (tb_high x w b H L) in E. discriminate.
Qed.

(* ---- one chunk ---- *)
Lemma le_of : forall v, Forall (fun b => (b < 256)%N) v -> le_bytes (length v) (of_le_bytes v) = v.
Proof.
  induction v as [|b v IH]; intros F; [reflexivity|]. inversion F; subst. cbn [length le_bytes of_le_bytes]. rewrite (N.mul_comm 256), N.mod_add, N.div_add by discriminate. rewrite N.mod_small, N.div_small, N.add_0_l, IH by assumption. reflexivity.
Qed.
Lemma of_bound : forall v, Forall (fun b => (b < 256)%N) v -> (of_le_bytes v < 2 ^ N.of_nat (8 * length v))%N.
Proof.
  induction v as [|b v IH]; intros F; [reflexivity|]. inversion F; subst. cbn [length of_le_bytes]. replace (8 * S (length v)) with (8 + 8 * length v) by lia. rewrite Nat2N.inj_add, N.pow_add_r. change (2 ^ N.of_nat 8)%N with 256%N. specialize (IH H2). nia.
Qed.
Definition bp (k : nat) : Prop := k = 1 \/ k = 2 \/ k = 4 \/ k = 8.
Lemma bp_iff : forall k, bitpackable k = true <-> bp k.
Proof. intros k. unfold bitpackable, bp. rewrite !orb_true_iff, !Nat.eqb_eq. tauto. Qed.
Lemma bp_bits : forall k, bp k -> word_bits (8 * k) /\ lanes (8 * k) * k = 128 /\ 0 < k <= 8.
Proof. intros k [->|[->|[->| ->]]]; vm_compute; intuition lia. Qed.
Lemma pow_bytes : forall k, (256 ^ N.of_nat k = 2 ^ N.of_nat (8 * k))%N.
Proof. intros k. rewrite Nat2N.inj_mul, N.pow_mul_r. reflexivity. Qed.

Lemma chunk_round : forall k w input mem, bp k -> 0 < w <= 8 * k -> length input = 1024 -> Forall (fun x => (x < 2 ^ N.of_nat w)%N) input ->
  exists ws, pack_chunk (8 * k) w input mem = Some ws /\ length ws * k = k + 128 * w /\ forall n, n <= 1024 -> bitpack_decode k (flat_map (le_bytes k) ws) n = Some (map (le_bytes k) input).
Proof.
  intros k w input mem K W LI FI. destruct (bp_bits k K) as (T & LK & KP). unfold pack_chunk. destruct (pack_unpack (8 * k) w input (map mem (seq 0 (1024 * w / (8 * k)))) (repeat 0%N 1024) T W LI FI) as [p (P1 & P2 & P3 & P4)]; [rewrite map_length, seq_length; reflexivity|apply repeat_length|].
  rewrite P1. cbn [omap]. rewrite packed_size in P2 by exact T. eexists. split; [reflexivity|]. assert (LW : (lanes (8 * k) * w) * k = 128 * w) by nia. split; [cbn [length]; nia|]. intros n NL. unfold bitpack_decode. rewrite (proj2 (bp_iff k) K).
  assert (WS : (N.of_nat w < 2 ^ N.of_nat (8 * k))%N) by (eapply N.lt_le_trans; [|apply (N.pow_le_mono_r 2 (N.of_nat w)); lia]; apply N.pow_gt_lin_r; lia).
  rewrite N.mod_small by exact WS. cbn [flat_map]. rewrite app_length, le_bytes_length, flat_le_length, P2, LW. rewrite (proj2 (Nat.ltb_ge _ _)) by lia. rewrite (proj2 (Nat.ltb_ge _ _)) by lia. cbn [orb negb].
  assert (LB := le_bytes_length k (N.of_nat w)). rewrite firstn_app, skipn_app, LB, Nat.sub_diag, firstn_O, app_nil_r. cbn [skipn]. rewrite firstn_all2, skipn_all2 by lia. cbn [app]. rewrite of_le_bytes_le by (rewrite pow_bytes; exact WS).
  rewrite flat_le_length, P2, Nat.mod_mul, Nat.div_mul by lia. rewrite LW. cbn [Nat.eqb negb orb].
  replace (N.of_nat (128 * w) =? N.of_nat w * 1024 / 8)%N with true; [|symmetry; apply N.eqb_eq; replace (N.of_nat w * 1024)%N with (N.of_nat (128 * w) * 8)%N by lia; rewrite N.div_mul by discriminate; reflexivity]. cbn [negb]. rewrite Nat2N.id.
  rewrite (chunks_exact_flat k) by (rewrite ?flat_le_length; lia). rewrite map_of_le by (rewrite pow_bytes; exact P3). rewrite P4. reflexivity.
Qed.

(* ---- all chunks ---- *)
Definition bytes_ok (k : nat) (vb : list (list N)) : Prop := Forall (fun v => length v = k /\ Forall (fun b => (b < 256)%N) v) vb.
Lemma map_le_of : forall k vb, bytes_ok k vb -> map (le_bytes k) (map of_le_bytes vb) = vb.
Proof. intros k vb F. rewrite map_map. transitivity (map (fun x => x) vb); [|apply map_id]. apply map_ext_in. intros v V. destruct (proj1 (Forall_forall _ _) F v V) as [<- B]. apply le_of, B. Qed.
Lemma vals_bound : forall k vb, bytes_ok k vb -> Forall (fun x => (x < 2 ^ N.of_nat (8 * k))%N) (map of_le_bytes vb).
Proof. intros k vb F. apply Forall_map. eapply Forall_impl; [|exact F]. intros v [<- B]. apply of_bound, B. Qed.
Lemma forall_skipn : forall A (P : A -> Prop) n l, Forall P l -> Forall P (skipn n l).
Proof. intros A P n l F. rewrite <- (firstn_skipn n l) in F. apply Forall_app in F. tauto. Qed.
Lemma forall_firstn : forall A (P : A -> Prop) n l, Forall P l -> Forall P (firstn n l).
Proof. intros A P n l F. rewrite <- (firstn_skipn n l) in F. apply Forall_app in F. tauto. Qed.
Lemma zeros_bound : forall n w, Forall (fun x => (x < 2 ^ N.of_nat w)%N) (repeat 0%N n).
Proof. intros n w. apply Forall_forall. intros x X. apply repeat_spec in X. subst. assert (Q := N.pow_nonzero 2 (N.of_nat w)). lia. Qed.

(* the parts of a page of [vb] from chunk [i] on *)
Definition parts_of (k : nat) (ps : list part) (vb : list (list N)) : Prop :=
  parts_ok (bitpack_decode k) ps /\ ps <> [] /\ flat_map t_vals ps = vb /\
  Forall (fun t => 0 < length (t_vals t) <= 1024 /\ (N.of_nat (length (t_bytes t)) <= 8200)%N) ps /\ Forall (fun n => n = 1024) (removelast (lens ps)).
Lemma chunk_bytes_u16 : forall k w, bp k -> w <= 8 * k -> N.to_nat (N.of_nat ((1 + 1024 * w / (8 * k)) * k) mod 65536) = k + 128 * w.
Proof.
  intros k w K W. destruct (bp_bits k K) as (T & LK & KP). rewrite packed_size by exact T. replace ((1 + lanes (8 * k) * w) * k) with (k + 128 * w) by nia. rewrite N.mod_small by lia. apply Nat2N.id.
Qed.
Lemma pack_chunks_ok : forall k vb mem fuel i, bp k -> bytes_ok k vb -> 1024 * i < length vb -> length vb - 1024 * i <= fuel ->
  Forall (fun w => w <> 0) (map chunk_width (chunks_of fuel 1024 (skipn (1024 * i) (map of_le_bytes vb)))) ->
  exists ps ws, pack_chunks k i (map chunk_width (chunks_of fuel 1024 (skipn (1024 * i) (map of_le_bytes vb)))) (map of_le_bytes vb) mem = Some (ws, map (fun t => (t_log t, length (t_bytes t))) ps) /\
    flat_map (le_bytes k) ws = flat_map t_bytes ps /\ parts_of k ps (skipn (1024 * i) vb).
Proof.
  intros k vb mem fuel i K OK. revert i. induction fuel as [|fuel IH]; intros i I F NZ; [lia|]. destruct (bp_bits k K) as (T & LK & KP). set (vals := map of_le_bytes vb) in *. assert (LV : length vals = length vb) by apply map_length.
  set (rest := skipn (1024 * i) vals) in *. assert (LR : length rest = length vb - 1024 * i) by (unfold rest; rewrite skipn_length; lia). assert (VB := vals_bound k vb OK). fold vals in VB.
  assert (CE : chunks_of (S fuel) 1024 rest = firstn 1024 rest :: chunks_of fuel 1024 (skipn (1024 * S i) vals)).
  { replace (skipn (1024 * S i) vals) with (skipn 1024 rest) by (unfold rest; rewrite skipn_skipn'; f_equal; lia). cbn [chunks_of]. destruct rest; [cbn in LR; lia|reflexivity]. }
  rewrite CE in *. cbn [map] in *. apply Forall_cons_iff in NZ as [NZ1 NZ2]. set (w := chunk_width (firstn 1024 rest)) in *. assert (WP : 0 < w) by lia. assert (WB : Forall (fun x => (x < 2 ^ N.of_nat w)%N) (firstn 1024 rest)) by (apply width_least; lia).
  assert (WT : w <= 8 * k) by (apply width_least, forall_firstn, forall_skipn, VB).
  destruct (Nat.le_gt_cases (length rest) 1024) as [L|L].
  - (* the last chunk *)
    assert (EN : skipn (1024 * S i) vals = []) by (apply skipn_all2; lia). rewrite EN. replace (chunks_of fuel 1024 (@nil N)) with (@nil (list N)) by (destruct fuel; reflexivity). cbn [map pack_chunks]. rewrite (chunk_bytes_u16 k w K WT).
    assert (ML : length vals mod 1024 = length rest mod 1024) by (replace (length vals) with (length rest + i * 1024) by lia; apply Nat.mod_add; lia).
    assert (NL : (if length vals mod 1024 =? 0 then 1024 else length vals mod 1024) = length rest).
    { rewrite ML. destruct (Nat.eq_dec (length rest) 1024) as [->|D]; [reflexivity|]. rewrite Nat.mod_small by lia. destruct (Nat.eqb_spec (length rest) 0); lia. }
    rewrite NL, (proj2 (Nat.ltb_ge _ _)) by lia. replace (length vals - length rest) with (1024 * i) by lia. fold rest. rewrite firstn_all2 in WB by lia.
    destruct (chunk_round k w (rest ++ repeat 0%N (1024 - length rest)) (mem i) K (conj WP WT)) as [ws (P1 & P2 & P3)]; [rewrite app_length, repeat_length; lia|apply Forall_app; split; [exact WB|apply zeros_bound]|]. rewrite P1. cbn [omap].
    exists [{| t_log := 0; t_bytes := flat_map (le_bytes k) ws; t_vals := skipn (1024 * i) vb |}], ws. cbn [map t_log t_bytes flat_map]. rewrite flat_le_length, P2, app_nil_r. split; [reflexivity|]. split; [reflexivity|].
    assert (LS : length (skipn (1024 * i) vb) = length rest) by (rewrite skipn_length; lia). unfold parts_of. cbn [parts_ok t_bytes t_vals t_log flat_map lens map removelast length]. rewrite app_nil_r, LS. split; [|split; [discriminate|split; [reflexivity|split; [|constructor]]]].
    + split; [|split; [reflexivity|split; [reflexivity|exact Logic.I]]]. exists (map (le_bytes k) (repeat 0%N (1024 - length rest))). rewrite P3 by lia. rewrite map_app. f_equal. f_equal. unfold rest, vals. rewrite skipn_map. apply map_le_of. apply forall_skipn. exact OK.
    + constructor; [|constructor]. cbn [t_vals t_bytes]. rewrite LS, flat_le_length, P2. lia.
  - (* another chunk *)
    destruct (IH (S i)) as [ps [ws (Q1 & Q2 & Q3)]]; [lia|lia|exact NZ2|]. cbn [map pack_chunks]. rewrite Q1.
    destruct (map chunk_width (chunks_of fuel 1024 (skipn (1024 * S i) vals))) as [|w1 wr] eqn:EW; [discriminate Q1|]. rewrite (chunk_bytes_u16 k w K WT). rewrite (proj2 (Nat.ltb_ge _ _)) by lia. fold rest.
    destruct (chunk_round k w (firstn 1024 rest) (mem i) K (conj WP WT)) as [wc (P1 & P2 & P3)]; [rewrite firstn_length; lia|exact WB|]. rewrite P1. cbn [obind omap].
    exists ({| t_log := 10; t_bytes := flat_map (le_bytes k) wc; t_vals := firstn 1024 (skipn (1024 * i) vb) |} :: ps), (wc ++ ws). cbn [map t_log t_bytes flat_map]. rewrite flat_map_app, flat_le_length, P2, Q2. split; [reflexivity|]. split; [reflexivity|].
    assert (LS : length (firstn 1024 (skipn (1024 * i) vb)) = 1024) by (rewrite firstn_length, skipn_length; lia). destruct Q3 as (R1 & R2 & R3 & R4 & R5). split; [|split; [discriminate|split; [|split]]].
    + cbn [parts_ok t_bytes t_vals t_log]. rewrite LS. split; [|split; [reflexivity|split; [|exact R1]]].
      * exists []. rewrite app_nil_r, P3 by lia. f_equal. unfold rest, vals. rewrite skipn_map, firstn_map. apply map_le_of, forall_firstn, forall_skipn, OK.
      * destruct ps; [congruence|]. split; [discriminate|reflexivity].
    + cbn [flat_map t_vals]. rewrite R3. replace (1024 * S i) with (1024 + 1024 * i) by lia. rewrite Nat.add_comm, <- skipn_skipn'. apply firstn_skipn.
    + constructor; [|exact R4]. cbn [t_vals t_bytes]. rewrite LS, flat_le_length, P2. lia.
    + unfold lens in *. cbn [map t_vals]. rewrite LS. destruct ps as [|p1 ps]; [congruence|]. cbn [map removelast] in *. constructor; [reflexivity|exact R5].
Qed.

Lemma bitpack_parts : forall k vb widths mem, bp k -> bytes_ok k vb -> bit_widths k (map of_le_bytes vb) = Some widths -> existsb (Nat.eqb 0) widths = false ->
  exists ps, bitpack_blocks k widths vb mem = Some (blocks_parts ps) /\ parts_of k ps vb.
Proof.
  intros k vb widths mem K OK H Z. unfold bit_widths in H. rewrite (proj2 (bp_iff k) K) in H. assert (L : 0 < length vb) by (destruct vb; [discriminate H|cbn; lia]). destruct (map of_le_bytes vb) as [|x l] eqn:E; [discriminate|]. rewrite <- E in H. injection H as <-.
  destruct (pack_chunks_ok k vb mem (length (map of_le_bytes vb)) 0 K OK) as [ps [ws (A & B & C)]].
  - rewrite Nat.mul_0_r. exact L.
  - rewrite map_length. lia.
  - rewrite Nat.mul_0_r. cbn [skipn]. apply Forall_forall. intros w W ->. assert (Q : existsb (Nat.eqb 0) (map chunk_width (chunks_of (length (map of_le_bytes vb)) 1024 (map of_le_bytes vb))) = true) by (apply existsb_exists; exists 0; auto). congruence.
  - rewrite Nat.mul_0_r in *. cbn [skipn] in *. exists ps. split; [|exact C]. unfold bitpack_blocks. rewrite A. cbn [omap]. rewrite B. reflexivity.
Qed.

(* ---- pages ---- *)
Section Page.
Context (ms : list meaning) (hd : bool) (ipr : nat) (rows : list (list item)) (OK : mini_ok ms hd ipr rows) (k : nat) (ps : list part) (PO : parts_of k ps (page_vals rows)).
Context (ROOM : has_lists ms = true -> length (concat rows) <= length (page_vals rows) + 1000).

Lemma bitpack_page : exists p, encode_mini (page_levels ms hd rows) (length (page_vals rows)) (blocks_parts ps) = Some p.
Proof.
  destruct PO as (S2 & S3 & S4 & S5 & S6). destruct (carved rows (bitpack_decode k) ps S2 S3 S4) as (CC & CN & _ & C2 & _). unfold cs in *. set (K := carve (lens ps) (concat rows)) in *. set (vals := page_vals rows) in *.
  assert (IC : icount shown (concat rows) = length (concat rows) - length vals) by (assert (Q := vi_count shown (concat rows)); rewrite <- vals_count in Q; unfold vals, page_vals; lia).
  assert (SH := items_shown ms hd ipr rows OK). apply (encode_some ms hd ipr rows (bitpack_decode k) ps OK S2 S3 S4).
  - fold K. assert (GO : forall (l : list part) k', Forall2 (fun t c => t_vals t = flat_map vals_of c) l k' -> (forall c, In c k' -> In c K) -> Forall (fun t => 0 < length (t_vals t) <= 1024 /\ (N.of_nat (length (t_bytes t)) <= 8200)%N) l ->
      Forall2 (fun t c => (N.of_nat (length (lvs (has_lists ms) i_rep c) + length (lvs hd i_def c) + length (t_bytes t) + 20) <= 16384)%N) l k'); [|apply GO; auto].
    intros l k' F. induction F as [|x c l k' V F IH]; intros J G; [constructor|]. apply Forall_cons_iff in G as [[G1 G2] G3]. constructor; [|apply IH; auto; intros d D; apply J; right; exact D].
    assert (IP := icount_part K c (J c (or_introl eq_refl))). rewrite CC, IC in IP. assert (LC := vi_count shown c). rewrite <- vals_count, <- V in LC.
    assert (LV : forall b f, length (lvs b f c) <= 2 * length c) by (intros [|] f; cbn [lvs]; [rewrite level_bytes_length, map_length; lia|cbn; lia]). assert (LV1 := LV (has_lists ms) i_rep). assert (LV2 := LV hd i_def). destruct (Bool.bool_dec (has_lists ms) true) as [H|H].
    + specialize (ROOM H). lia.
    + apply not_true_is_false in H. specialize (SH ltac:(rewrite H; reflexivity)). assert (IZ : icount shown (concat rows) = 0) by (apply icount_vis; exact SH). rewrite H in *. cbn [lvs length] in *. lia.
  - intros H. fold K. clear -S5 C2. induction C2 as [|x c l k' V C2 IH]; [constructor|]. apply Forall_cons_iff in S5 as [[N0 N1] N2]. constructor; [|auto]. intros ->. cbn in V. rewrite V in N0. cbn in N0. lia.
Qed.
End Page.

(* every run of 1024 values has one that is not zero *)
Definition no_zero_run (vb : list (list N)) : Prop := forall i, 1024 * i < length vb -> exists j v, 1024 * i <= j < 1024 * (i + 1) /\ nth_error vb j = Some v /\ of_le_bytes v <> 0%N.
Lemma in_firstn_at : forall A n (l : list A) j v, nth_error l j = Some v -> j < n -> In v (firstn n l).
Proof. induction n as [|n IH]; intros l j v H L; [lia|]. destruct l as [|x l]; [destruct j; discriminate|]. destruct j as [|j]; [injection H as ->; left; reflexivity|]. right. apply IH with j; [exact H|lia]. Qed.
Lemma nth_skipn_at : forall A a (l : list A) j, nth_error (skipn a l) j = nth_error l (a + j).
Proof. induction a as [|a IH]; intros l j; [reflexivity|]. destruct l as [|x l]; [destruct j; reflexivity|]. apply IH. Qed.
Lemma widths_nonzero : forall vb fuel i, no_zero_run vb -> Forall (fun w => w <> 0) (map chunk_width (chunks_of fuel 1024 (skipn (1024 * i) (map of_le_bytes vb)))).
Proof.
  intros vb fuel. induction fuel as [|fuel IH]; intros i H; [constructor|]. cbn [chunks_of]. destruct (skipn (1024 * i) (map of_le_bytes vb)) as [|x r] eqn:E; [constructor|]. rewrite <- E. constructor.
  - intros Z. assert (L : 1024 * i < length vb) by (assert (Q : length (skipn (1024 * i) (map of_le_bytes vb)) = S (length r)) by (rewrite E; reflexivity); rewrite skipn_length, map_length in Q; lia).
    destruct (H i L) as [j [v (J & V & NZ)]]. apply NZ. assert (W : Forall (fun x => (x < 2 ^ N.of_nat 0)%N) (firstn 1024 (skipn (1024 * i) (map of_le_bytes vb)))) by (apply width_least; lia). rewrite Forall_forall in W.
    assert (X : In (of_le_bytes v) (firstn 1024 (skipn (1024 * i) (map of_le_bytes vb)))).
    { apply in_firstn_at with (j - 1024 * i); [|lia]. rewrite nth_skipn_at. replace (1024 * i + (j - 1024 * i)) with j by lia. apply map_nth_error. exact V. }
    specialize (W _ X). change (2 ^ N.of_nat 0)%N with 1%N in W. lia.
  - replace (skipn 1024 (skipn (1024 * i) (map of_le_bytes vb))) with (skipn (1024 * S i) (map of_le_bytes vb)) by (rewrite skipn_skipn'; f_equal; lia). apply IH, H.
Qed.
(* values of 8, 16, 32 and 64 bits without a run of zeros are bit packed *)
Lemma fixed_packed : forall k vb mem, bp k -> bytes_ok k vb -> vb <> [] -> no_zero_run vb -> exists ps, fixed_blocks k vb mem = Some (true, blocks_parts ps) /\ parts_of k ps vb.
Proof.
  intros k vb mem K OK NE NZ. set (widths := map chunk_width (chunks_of (length (map of_le_bytes vb)) 1024 (map of_le_bytes vb))).
  assert (BW : bit_widths k (map of_le_bytes vb) = Some widths) by (unfold bit_widths; rewrite (proj2 (bp_iff k) K); destruct vb; [congruence|reflexivity]).
  assert (Z : existsb (Nat.eqb 0) widths = false).
  { assert (F := widths_nonzero vb (length (map of_le_bytes vb)) 0 NZ). rewrite Nat.mul_0_r in F. cbn [skipn] in F. fold widths in F. rewrite Forall_forall in F. destruct (existsb (Nat.eqb 0) widths) eqn:E; [|reflexivity]. apply existsb_exists in E as [w [W1 W2]]. apply Nat.eqb_eq in W2. subst. exfalso. apply (F 0 W1). reflexivity. }
  destruct (bitpack_parts k vb widths mem K OK BW Z) as [ps [A B]]. exists ps. split; [|exact B]. unfold fixed_blocks. rewrite BW. cbn [obind]. rewrite Z, (proj2 (bp_iff k) K). cbn [negb andb]. rewrite A. reflexivity.
Qed.

Lemma flat_vals_ne : forall ms hd ipr rows, mini_ok ms hd ipr rows -> has_lists ms = false -> page_vals rows <> [].
Proof.
  intros ms hd ipr rows OK H. assert (SH := items_shown ms hd ipr rows OK ltac:(rewrite H; reflexivity)). assert (IZ : icount shown (concat rows) = 0) by (apply icount_vis; exact SH). assert (Q := vi_count shown (concat rows)). rewrite <- vals_count in Q. assert (NI := items_ne ms hd ipr rows OK). intros E. unfold page_vals in E. rewrite E in Q. destruct (concat rows); [congruence|]. cbn in *. lia.
Qed.
(* without lists: whatever the compressor chosen, and whatever the memory held *)
Theorem fixed_flat : forall ms hd ipr rows k mem rs ns, mini_ok ms hd ipr rows -> has_lists ms = false -> 0 < k -> (N.of_nat (2 * k) < 8186)%N -> bytes_ok k (page_vals rows) ->
  sorted 0 (length rows) rs -> Forall (fun n => 0 < n) ns -> sumn ns <= length (flat_map (pick rows) rs) ->
  exists c b p, fixed_blocks k (page_vals rows) mem = Some (c, b) /\ encode_mini (page_levels ms hd rows) (length (page_vals rows)) b = Some p /\
    read_mini (fixed_decode k c) p ipr rs ns = Some (map (batch_of ms hd) (groups ns (flat_map (pick rows) rs))).
Proof.
  intros ms hd ipr rows k mem rs ns OK H KP KB BO SO NP NS. assert (NV := flat_vals_ne ms hd ipr rows OK H). set (widths := if bitpackable k then map chunk_width (chunks_of (length (map of_le_bytes (page_vals rows))) 1024 (map of_le_bytes (page_vals rows))) else [8 * k]).
  assert (BW : bit_widths k (map of_le_bytes (page_vals rows)) = Some widths) by (unfold bit_widths; destruct (page_vals rows); [congruence|reflexivity]).
  destruct (negb (existsb (Nat.eqb 0) widths) && bitpackable k) eqn:C.
  - apply andb_true_iff in C as [C1 C2]. apply negb_true_iff in C1. assert (K : bp k) by (apply bp_iff; exact C2). destruct (bitpack_parts k (page_vals rows) widths mem K BO BW C1) as [ps [A B]]. destruct (bitpack_page ms hd ipr rows OK k ps B) as [p P]; [intros; congruence|].
    exists true, (blocks_parts ps), p. split; [unfold fixed_blocks; rewrite BW; cbn [obind]; rewrite C1, C2; cbn [negb andb]; rewrite A; reflexivity|]. split; [exact P|]. destruct B as (B1 & B2 & B3 & _). apply (mini_read ms hd ipr rows (bitpack_decode k) ps p rs ns); auto. intros Q. congruence.
  - destruct (value_flat ms hd ipr rows k rs ns OK H KP KB) as [b [p (A & B & D)]]; auto; [eapply Forall_impl; [|exact BO]; intros v [V _]; exact V|]. exists false, b, p. split; [unfold fixed_blocks; rewrite BW; cbn [obind]; rewrite C, A; reflexivity|]. auto.
Qed.
(* lists of integers without runs of zeros and with not too many lists without values *)
Theorem packed_lists_scan : forall ms hd rows k mem ns, mini_ok ms hd 1 rows -> bp k -> bytes_ok k (page_vals rows) -> page_vals rows <> [] -> no_zero_run (page_vals rows) -> length (concat rows) <= length (page_vals rows) + 1000 ->
  Forall (fun n => 0 < n) ns -> sumn ns = length rows ->
  exists b p, fixed_blocks k (page_vals rows) mem = Some (true, b) /\ encode_mini (page_levels ms hd rows) (length (page_vals rows)) b = Some p /\
    read_mini (fixed_decode k true) p 1 [(0, length rows)] ns = Some (map (batch_of ms hd) (groups ns rows)).
Proof.
  intros ms hd rows k mem ns OK K BO NV NZ RM NP NS. destruct (fixed_packed k (page_vals rows) mem K BO NV NZ) as [ps [A B]]. destruct (bitpack_page ms hd 1 rows OK k ps B) as [p P]; [auto|]. exists (blocks_parts ps), p. split; [exact A|]. split; [exact P|]. destruct B as (B1 & B2 & B3 & _). apply (mini_scan ms hd 1 rows (bitpack_decode k) ps p ns); auto.
Qed.
Theorem packed_lists_ranges : forall ms hd rows k mem rs ns, mini_ok ms hd 1 rows -> bp k -> bytes_ok k (page_vals rows) -> page_vals rows <> [] -> no_zero_run (page_vals rows) -> length (concat rows) <= length (page_vals rows) + 1000 ->
  Forall (fun r => length r <= 1024) rows -> sorted 0 (length rows) rs -> Forall (fun n => 0 < n) ns -> sumn ns <= length (flat_map (pick rows) rs) ->
  exists b p, fixed_blocks k (page_vals rows) mem = Some (true, b) /\ encode_mini (page_levels ms hd rows) (length (page_vals rows)) b = Some p /\
    read_mini (fixed_decode k true) p 1 rs ns = Some (map (batch_of ms hd) (groups ns (flat_map (pick rows) rs))).
Proof.
  intros ms hd rows k mem rs ns OK K BO NV NZ RM SM SO NP NS. destruct (fixed_packed k (page_vals rows) mem K BO NV NZ) as [ps [A B]]. destruct (bitpack_page ms hd 1 rows OK k ps B) as [p P]; [auto|]. exists (blocks_parts ps), p. split; [exact A|]. split; [exact P|]. destruct B as (B1 & B2 & B3 & B4 & B5). apply (mini_read ms hd 1 rows (bitpack_decode k) ps p rs ns); auto. intros H.
  assert (SL : Forall (fun r => fst r < length rows) rs) by (clear -SO; revert SO; generalize 0 as lo; induction rs as [|r rs IH]; intros lo S; [constructor|]; destruct S as (S1 & S2 & S3); constructor; [lia|eauto]).
  eapply Forall_impl; [|exact SL]. intros r R. cbv beta in R. apply (small_rows ms hd 1 rows (bitpack_decode k) ps 1024 (fst r)); auto. eapply Forall_impl; [|exact B5]. intros n ->. lia.
Qed.
