(* Strings that are compressed come back the same. *)
From Coq Require Import List Arith NArith ZArith Bool Lia.
From Verif Require Import Lib PageModel FsstModel FsstTable.
Import ListNotations.
Local Open Scope nat_scope.

(* ---- what compressed strings are made of ---- *)
Inductive tok := TCode (c : nat) | TEsc (b : nat).
Definition tok_bytes (k : tok) : list nat := match k with TCode c => [c] | TEsc b => [255; b] end.
Definition tok_out (d : decoder) (k : tok) : list nat := match k with TCode c => out_sym d c | TEsc b => [b] end.
Definition tok_ok (k : tok) : Prop := match k with TCode c => c < 255 | TEsc b => b < 256 end.
Definition flat (l : list tok) : list nat := flat_map tok_bytes l.
Definition outs (d : decoder) (l : list tok) : list nat := flat_map (tok_out d) l.
Lemma esc_bit_ok : forall b, b < 256 -> esc_bit b = (b =? 255).
Proof. assert (H : forallb (fun b => Bool.eqb (esc_bit b) (b =? 255)) (seq 0 256) = true) by (vm_compute; reflexivity). intros b L. rewrite forallb_forall in H. apply Bool.eqb_prop, H, in_seq. lia. Qed.
Lemma esc_code : forall c, c < 255 -> esc_bit c = false.
Proof. intros c L. rewrite esc_bit_ok by lia. apply Nat.eqb_neq. lia. Qed.
Lemma esc_255 : esc_bit 255 = true.
Proof. reflexivity. Qed.
Lemma code_not_esc : forall c, c < 255 -> (c =? 255) = false.
Proof. intros c L. apply Nat.eqb_neq. lia. Qed.
Lemma decode_tokens : forall d m toks fuel, length toks <= m -> Forall tok_ok toks -> length (flat toks) < fuel -> decode_string fuel d (flat toks) = Some (outs d toks).
Proof.
  induction m as [|m IH]; intros toks fuel LM F LF.
  { destruct toks; [|cbn in LM; lia]. destruct fuel; [cbn in LF; lia|reflexivity]. }
  destruct fuel as [|fuel]; [lia|].
  assert (J : forall r, length r <= m -> Forall tok_ok r -> length (flat r) < fuel -> decode_string fuel d (flat r) = Some (outs d r)) by (intros; now apply IH). clear IH.
  destruct toks as [|t1 toks]; [reflexivity|]. apply Forall_cons_iff in F as [F1 F]. cbn [length] in LM.
  destruct t1 as [c1|b1]; cbn [flat flat_map tok_bytes app tok_ok] in *; fold (flat toks) in *.
  2:{ (* an escape first *)
    cbn [outs flat_map tok_out app]. fold (outs d toks). destruct toks as [|t2 toks2].
    - cbn. reflexivity.
    - destruct (flat (t2 :: toks2)) as [|x [|y r]] eqn:E.
      + destruct t2; discriminate E.
      + destruct t2 as [c2|b2]; [|discriminate E]. destruct toks2 as [|t3 toks3]; [|destruct t3; discriminate E]. injection E as <-. cbn. now rewrite app_nil_r.
      + cbn [decode_string]. rewrite esc_255, <- E. cbn [length] in LF. rewrite J; [reflexivity|lia|exact F|rewrite E; cbn [length]; lia]. }
  cbn [outs flat_map tok_out]. fold (outs d toks). pose proof (esc_code c1 F1) as E1. pose proof (code_not_esc c1 F1) as Q1.
  destruct toks as [|t2 toks]; [cbn; now rewrite app_nil_r|]. apply Forall_cons_iff in F as [F2 F]. cbn [length] in LM.
  destruct t2 as [c2|b2]; cbn [flat flat_map tok_bytes app tok_ok] in *; fold (flat toks) in *; cbn [outs flat_map tok_out]; fold (outs d toks).
  2:{ destruct (flat toks) as [|x r] eqn:E.
    - destruct toks as [|t3 toks]; [|destruct t3; discriminate E]. cbn [decode_string]. rewrite Q1. reflexivity.
    - cbn [decode_string]. rewrite E1, esc_255, <- E. cbn [length] in LF. rewrite J; [reflexivity|lia|exact F|rewrite E; cbn [length]; lia]. }
  pose proof (esc_code c2 F2) as E2. pose proof (code_not_esc c2 F2) as Q2.
  destruct toks as [|t3 toks]; [cbn [flat flat_map decode_string]; rewrite Q1, Q2; cbn; now rewrite app_nil_r|]. apply Forall_cons_iff in F as [F3 F]. cbn [length] in LM.
  destruct t3 as [c3|b3]; cbn [flat flat_map tok_bytes app tok_ok] in *; fold (flat toks) in *; cbn [outs flat_map tok_out]; fold (outs d toks).
  2:{ cbn [decode_string]. rewrite E1, E2, esc_255. cbn [length] in LF. rewrite J; [reflexivity|lia|exact F|lia]. }
  pose proof (esc_code c3 F3) as E3. pose proof (code_not_esc c3 F3) as Q3.
  destruct toks as [|t4 toks]; [cbn [flat flat_map decode_string]; rewrite Q1, Q2; cbn; now rewrite app_nil_r|]. apply Forall_cons_iff in F as [F4 F]. cbn [length] in LM.
  destruct t4 as [c4|b4]; cbn [flat flat_map tok_bytes app tok_ok] in *; fold (flat toks) in *; cbn [outs flat_map tok_out]; fold (outs d toks).
  - pose proof (esc_code c4 F4) as E4. cbn [decode_string]. rewrite E1, E2, E3, E4. cbn [length] in LF. rewrite J; [reflexivity|lia|exact F|lia].
  - cbn [decode_string]. rewrite E1, E2, E3, esc_255. cbn [length] in LF. rewrite J; [reflexivity|lia|exact F|lia].
Qed.

(* ---- compressing ---- *)
Lemma nth_skipn' : forall k i (l : list nat), nth i (skipn k l) 0 = nth (k + i) l 0.
Proof. induction k as [|k IH]; intros i l; [reflexivity|]. destruct l as [|x l]; [now destruct i|]. apply IH. Qed.
Lemma nth_firstn_lt : forall k i (l : list nat), i < k -> nth i (firstn k l) 0 = nth i l 0.
Proof. induction k as [|k IH]; intros i l L; [lia|]. destruct l as [|x l]; [reflexivity|]. destruct i as [|i]; [reflexivity|]. cbn [firstn nth]. apply IH. lia. Qed.
Lemma firstn_add : forall m n (l : list nat), firstn (m + n) l = firstn m l ++ firstn n (skipn m l).
Proof. induction m as [|m IH]; intros n l; [reflexivity|]. destruct l as [|x l]; [now rewrite !firstn_nil|]. cbn. now rewrite IH. Qed.
Section Encode.
  Variable h : list nat -> nat.
  Variable f : ftable.
  Hypothesis G : good_f f.
  Variable d : decoder.
  Hypothesis D : forall c, c < f_n f -> out_sym d c = f_syms f c.
  Lemma lookup_ok : forall word c, 2 <= length word -> Forall (fun b => b < 256) word -> lookup h f word = c ->
    c = ESC_CODE \/ (1 <= c_len c <= 8 /\ c_code c < f_n f /\ f_syms f (c_code c) = firstn (c_len c) word /\ length (firstn (c_len c) word) = c_len c /\ (2 <= c_len c -> ~ In (term_byte (f_term f)) (firstn (c_len c) word))).
  Proof.
    intros word c L B <-. destruct word as [|b0 [|b1 word]]; [cbn in L; lia|cbn in L; lia|]. apply Forall_cons_iff in B as [B0 B]. unfold lookup. cbn [nth].
    assert (SH : f_short f b0 b1 = ESC_CODE \/ (1 <= c_len (f_short f b0 b1) <= 8 /\ c_code (f_short f b0 b1) < f_n f /\ f_syms f (c_code (f_short f b0 b1)) = firstn (c_len (f_short f b0 b1)) (b0 :: b1 :: word) /\ length (firstn (c_len (f_short f b0 b1)) (b0 :: b1 :: word)) = c_len (f_short f b0 b1) /\ (2 <= c_len (f_short f b0 b1) -> ~ In (term_byte (f_term f)) (firstn (c_len (f_short f b0 b1)) (b0 :: b1 :: word))))).
    { destruct (h_short f G b0 b1 B0) as [->|(E1 & E2 & E3 & E4)].
      - destruct (h_bytes f G b0 B0) as [->|(E1 & E2 & E3)]; [now left|]. right. rewrite E1, E3. cbn [firstn length]. repeat split; lia.
      - right. rewrite E1, E3. cbn [firstn length]. repeat split; try lia; auto. }
    destruct (f_hash f (h (firstn 3 (b0 :: b1 :: word)))) as [[s c]|] eqn:E; [|exact SH]. destruct (list_eq_dec Nat.eq_dec s (firstn (length s) (b0 :: b1 :: word))) as [Q|Q]; [|exact SH].
    destruct (h_hash f G _ s c E) as (E1 & E2 & E3 & E4 & E5). right. rewrite E1, <- Q. repeat split; try lia; auto.
  Qed.
  Lemma encode_chunk_ok : forall fuel buf pos fin, pos <= fin -> fin - pos <= fuel -> fin < length buf -> nth fin buf 0 = term_byte (f_term f) -> Forall (fun b => b < 256) buf ->
    exists toks, encode_chunk h fuel f buf pos fin = flat toks /\ Forall tok_ok toks /\ outs d toks = slice pos fin buf /\ length (flat toks) <= 2 * (fin - pos).
  Proof.
    induction fuel as [|fuel IH]; intros buf pos fin L1 L2 L3 T B; cbn [encode_chunk].
    { exists []. replace fin with pos by lia. unfold slice. rewrite Nat.sub_diag. repeat split; [constructor|cbn; lia]. }
    destruct (Nat.ltb_spec pos fin) as [L|L]; [|exists []; replace fin with pos by lia; unfold slice; rewrite Nat.sub_diag; repeat split; [constructor|cbn; lia]].
    set (word := firstn 8 (skipn pos buf)). assert (LW : 2 <= length word) by (unfold word; rewrite firstn_length, skipn_length; lia).
    assert (BW : Forall (fun b => b < 256) word) by (unfold word; apply Forall_forall; intros x Hx; apply (proj1 (Forall_forall _ _) B); rewrite <- (firstn_skipn pos buf); apply in_or_app; right; rewrite <- (firstn_skipn 8 (skipn pos buf)); apply in_or_app; now left).
    set (c := lookup h f word). destruct (lookup_ok word c LW BW eq_refl) as [->|(E1 & E2 & E3 & E4 & E5)].
    - (* an escaped byte *)
      cbn [ESC_CODE c_code c_len]. destruct (IH buf (pos + 1) fin ltac:(lia) ltac:(lia) L3 T B) as (toks & -> & F & O & LN). exists (TEsc (nth 0 word 0) :: toks). split; [reflexivity|]. split; [constructor; [|exact F]; apply (proj1 (Forall_forall _ _) BW), nth_In; lia|].
      cbn [outs flat_map tok_out]. fold (outs d toks). rewrite O. split.
      + unfold slice, word. destruct (skipn pos buf) as [|x r] eqn:E; [apply (f_equal (@length nat)) in E; rewrite skipn_length in E; cbn in E; lia|]. replace (fin - pos) with (S (fin - (pos + 1))) by lia. cbn [firstn nth app]. f_equal. rewrite <- skipn_skipn'. rewrite E. reflexivity.
      + cbn [flat flat_map tok_bytes app length]. fold (flat toks). lia.
    - pose proof (h_n f G) as N255. assert (FIT : pos + c_len c <= fin).
      { destruct (le_lt_dec (pos + c_len c) fin) as [X|X]; [exact X|]. exfalso. assert (TI : In (term_byte (f_term f)) (firstn (c_len c) word)).
        { rewrite <- T. replace (nth fin buf 0) with (nth (fin - pos) (firstn (c_len c) word) 0); [apply nth_In; lia|].
          rewrite nth_firstn_lt by lia. unfold word. rewrite nth_firstn_lt by lia. rewrite nth_skipn'. f_equal. lia. }
        apply E5 in TI; [exact TI|lia]. }
      rewrite Nat.mod_small by lia. replace (256 <=? c_code c) with false by (symmetry; apply Nat.leb_gt; lia). cbn [app].
      destruct (IH buf (pos + c_len c) fin FIT ltac:(lia) L3 T B) as (toks & -> & F & O & LN). exists (TCode (c_code c) :: toks). split; [reflexivity|]. split; [constructor; [cbn; lia|exact F]|].
      cbn [outs flat_map tok_out]. fold (outs d toks). rewrite O, D by exact E2. split.
      + rewrite E3. unfold slice, word. rewrite firstn_firstn, Nat.min_l by lia. replace (fin - pos) with (c_len c + (fin - (pos + c_len c))) by lia. rewrite firstn_add. f_equal. now rewrite skipn_skipn'.
      + cbn [flat flat_map tok_bytes app length]. fold (flat toks). lia.
  Qed.
  Lemma flat_app : forall a b, flat (a ++ b) = flat a ++ flat b.
  Proof. intros. apply flat_map_app. Qed.
  Lemma term_lt : forall t, term_byte t < 256.
  Proof. intros t. apply Nat.mod_upper_bound. discriminate. Qed.
  Lemma encode_pieces_ok : forall fuel buf s, length s <= fuel -> Forall (fun b => b < 256) buf -> Forall (fun b => b < 256) s ->
    exists toks, encode_pieces h fuel f buf s = flat toks /\ Forall tok_ok toks /\ outs d toks = s /\ length (flat toks) <= 2 * length s.
  Proof.
    induction fuel as [|fuel IH]; intros buf s L B S; cbn [encode_pieces].
    { destruct s; [|cbn in L; lia]. exists []. repeat split; [constructor|cbn; lia]. }
    destruct s as [|b s']; [exists []; repeat split; [constructor|cbn; lia]|]. set (s := b :: s') in *. set (piece := firstn 511 s). set (buf' := piece ++ term_byte (f_term f) :: skipn (Datatypes.S (length piece)) buf).
    assert (LP : 1 <= length piece) by (unfold piece; rewrite firstn_length; cbn [s length]; lia).
    assert (BP : Forall (fun b => b < 256) piece) by (apply Forall_forall; intros x Hx; apply (proj1 (Forall_forall _ _) S); rewrite <- (firstn_skipn 511 s); apply in_or_app; now left).
    assert (B' : Forall (fun b => b < 256) buf') by (apply Forall_app; split; [exact BP|constructor; [apply term_lt|]]; apply Forall_forall; intros x Hx; apply (proj1 (Forall_forall _ _) B); rewrite <- (firstn_skipn (Datatypes.S (length piece)) buf); apply in_or_app; now right).
    destruct (encode_chunk_ok (length piece) buf' 0 (length piece)) as (t1 & E1 & F1 & O1 & L1); [lia|lia|unfold buf'; rewrite app_length; cbn [length]; lia|unfold buf'; rewrite app_nth2, Nat.sub_diag by lia; reflexivity|exact B'|].
    assert (LS : length piece + length (skipn 511 s) = length s) by (unfold piece; rewrite firstn_length, skipn_length; lia).
    destruct (IH buf' (skipn 511 s)) as (t2 & E2 & F2 & O2 & L2); [lia|exact B'|apply Forall_forall; intros x Hx; apply (proj1 (Forall_forall _ _) S); rewrite <- (firstn_skipn 511 s); apply in_or_app; now right|].
    exists (t1 ++ t2). rewrite E1, E2, flat_app. split; [reflexivity|]. split; [now apply Forall_app|]. split.
    - unfold outs in *. rewrite flat_map_app, O1, O2. unfold slice. rewrite Nat.sub_0_r. cbn [skipn]. unfold buf'. rewrite firstn_app, Nat.sub_diag, firstn_all. cbn [firstn]. rewrite app_nil_r. apply firstn_skipn.
    - rewrite app_length. lia.
  Qed.
  (* one string: back the same, and never more than twice as long *)
  Lemma string_ok : forall s fuel, Forall (fun b => b < 256) s -> length (encode_string h f s) < fuel -> decode_string fuel d (encode_string h f s) = Some s /\ length (encode_string h f s) <= 2 * length s.
  Proof.
    intros s fuel S LF. unfold encode_string in *. destruct (encode_pieces_ok (length s) (repeat 0 520) s) as (t & E & F & O & L); [lia|apply Forall_forall; intros x Hx; apply repeat_spec in Hx; lia|exact S|]. rewrite E in *. split; [|exact L]. rewrite (decode_tokens d (length t)); [now rewrite O|lia|exact F|exact LF].
  Qed.
End Encode.

(* ---- the table in bytes ---- *)
Lemma slice_blocks : forall X (L : list (list X)) w c, Forall (fun l => length l = w) L -> c < length L -> firstn w (skipn (w * c) (concat L)) = nth c L [].
Proof.
  induction L as [|l L IH]; intros w c F LC; [cbn in LC; lia|]. apply Forall_cons_iff in F as [F0 F]. cbn [concat]. destruct c as [|c].
  - rewrite Nat.mul_0_r. cbn [skipn nth]. rewrite firstn_app, F0, Nat.sub_diag. cbn [firstn]. rewrite app_nil_r. apply firstn_all2. lia.
  - cbn [nth]. rewrite <- (IH w c F) by (cbn in LC; lia). f_equal. rewrite skipn_app. replace (w * Datatypes.S c) with (w + w * c) by lia. rewrite (skipn_all2 l) by lia. cbn [app]. f_equal. lia.
Qed.
Lemma flat_blocks : forall X (g : nat -> list X) w n, (forall i, i < n -> length (g i) = w) -> length (flat_map g (seq 0 n)) = w * n /\ forall c, c < n -> firstn w (skipn (w * c) (flat_map g (seq 0 n))) = g c.
Proof.
  intros X g w n H. rewrite flat_map_concat_map. assert (F : Forall (fun l => length l = w) (map g (seq 0 n))) by (apply Forall_map, Forall_forall; intros i Hi; apply in_seq in Hi; apply H; lia). split.
  - assert (E : forall L, Forall (fun l : list X => length l = w) L -> length (concat L) = w * length L) by (induction L as [|l L IH]; intros Q; [cbn; lia|]; apply Forall_cons_iff in Q as [Q0 Q]; cbn [concat length]; rewrite app_length, IH by exact Q; lia). rewrite E by exact F. now rewrite map_length, seq_length.
  - intros c L. rewrite (slice_blocks X _ w c F) by (rewrite map_length, seq_length; exact L). rewrite (nth_indep _ [] (g 0)) by (rewrite map_length, seq_length; exact L). rewrite map_nth, seq_nth by exact L. reflexivity.
Qed.
Lemma magic_ok : forall a b c e r, negb (forallb (fun p => Nat.land (fst p) (snd p) =? snd p) (combine (slice 4 8 (a :: b :: c :: e :: 84 :: 83 :: 83 :: 70 :: r)) magic)) = false.
Proof. intros. change (slice 4 8 (a :: b :: c :: e :: 84 :: 83 :: 83 :: 70 :: r)) with [84; 83; 83; 70]. vm_compute. reflexivity. Qed.
Lemma table_ok : forall tbl switch suffix term n syms, length tbl = table_size -> n <= 255 -> (forall c, c < n -> length (syms c) <= 8) ->
  exists d, init_decoder (export tbl (table_bytes switch suffix term n syms)) = Some d /\ d_switch d = switch /\ (forall c, c < n -> out_sym d c = syms c) /\ length (export tbl (table_bytes switch suffix term n syms)) = table_size.
Proof.
  intros tbl switch suffix term n syms LT N8 S8. destruct (flat_blocks nat (fun i => val_bytes (syms i)) 8 n) as [LV SV]. { intros i _. unfold val_bytes. rewrite firstn_length, app_length, repeat_length. lia. }
  set (vals := flat_map (fun i => val_bytes (syms i)) (seq 0 n)) in *. set (lens := map (fun i => length (syms i)) (seq 0 n)). assert (LL : length lens = n) by (unfold lens; now rewrite map_length, seq_length).
  set (body := table_bytes switch suffix term n syms). assert (EB : body = n mod 256 :: term mod 256 :: suffix mod 256 :: (if switch then 1 else 0) :: 84 :: 83 :: 83 :: 70 :: vals ++ lens) by reflexivity. assert (LB : length body = 8 + 9 * n) by (rewrite EB; cbn [length]; rewrite app_length; lia). clearbody body.
  assert (LE : length (export tbl body) = table_size). { unfold export. rewrite app_length, skipn_length, LB, LT. unfold table_size. lia. }
  unfold init_decoder. rewrite LE, Nat.eqb_refl. set (rest := skipn (length body) tbl) in *. assert (EE : export tbl body = n mod 256 :: term mod 256 :: suffix mod 256 :: (if switch then 1 else 0) :: 84 :: 83 :: 83 :: 70 :: vals ++ lens ++ rest). { unfold export. fold rest. rewrite EB at 1. cbn [app]. rewrite <- app_assoc. reflexivity. }
  clearbody rest. rewrite EE. rewrite Nat.mod_small by lia. rewrite magic_ok. change (negb true) with false. cbn [orb]. eexists. split; [reflexivity|]. cbn [d_switch nth]. split; [destruct switch; reflexivity|]. split; [|reflexivity].
  intros c LC. unfold out_sym. cbn [d_lens d_syms nth]. replace (c <? n) with true by (symmetry; apply Nat.ltb_lt; exact LC).
  assert (V1 : slice (8 + 8 * c) (16 + 8 * c) (n :: term mod 256 :: suffix mod 256 :: (if switch then 1 else 0) :: 84 :: 83 :: 83 :: 70 :: vals ++ lens ++ rest) = val_bytes (syms c)).
  { unfold slice. replace (16 + 8 * c - (8 + 8 * c)) with 8 by lia. cbn [skipn Nat.add]. rewrite skipn_app, firstn_app, skipn_length. rewrite <- SV by exact LC. replace (8 - (length vals - 8 * c)) with 0 by lia. cbn [firstn]. now rewrite app_nil_r. }
  rewrite V1. assert (V2 : nth (8 + 8 * n + c) (n :: term mod 256 :: suffix mod 256 :: (if switch then 1 else 0) :: 84 :: 83 :: 83 :: 70 :: vals ++ lens ++ rest) 0 = length (syms c)).
  { cbn [Nat.add nth]. rewrite app_nth2 by lia. rewrite LV, app_nth1 by lia. replace (8 * n + c - 8 * n) with c by lia. unfold lens. rewrite (nth_indep _ 0 (length (syms 0))) by (rewrite map_length, seq_length; exact LC). rewrite (map_nth (fun i => length (syms i))), seq_nth by exact LC. reflexivity. }
  change (nth (8 + 8 * n + c) (n :: term mod 256 :: suffix mod 256 :: (if switch then 1 else 0) :: 84 :: 83 :: 83 :: 70 :: vals ++ lens ++ rest) 0) with (nth (8 * n + c) (vals ++ lens ++ rest) 0) in V2. change (8 + 8 * n + c) with (S (S (S (S (S (S (S (S (8 * n + c))))))))). cbn match. rewrite V2. unfold val_bytes. rewrite firstn_firstn, Nat.min_l by (now apply S8). rewrite firstn_app, Nat.sub_diag, firstn_all. cbn [firstn]. now rewrite app_nil_r.
Qed.

(* ---- whole columns ---- *)
Lemma strings_offsets : forall l pre, strings_of (pre ++ concat l) (offsets_from (length pre) l) = l.
Proof.
  induction l as [|s l IH]; intros pre; [reflexivity|]. assert (E : strings_of (pre ++ concat (s :: l)) (offsets_from (length pre) (s :: l)) = slice (length pre) (length pre + length s) (pre ++ concat (s :: l)) :: strings_of (pre ++ concat (s :: l)) (offsets_from (length pre + length s) l)). { cbn [offsets_from]. destruct l; reflexivity. }
  rewrite E. f_equal.
  - unfold slice. replace (length pre + length s - length pre) with (length s) by lia. rewrite skipn_app, skipn_all, Nat.sub_diag. cbn [app skipn concat]. rewrite firstn_app, Nat.sub_diag, firstn_all. cbn [firstn]. now rewrite app_nil_r.
  - cbn [concat]. rewrite app_assoc. rewrite <- app_length. apply IH.
Qed.
Lemma strings_bytes : forall buf offs, Forall (fun b => b < 256) buf -> Forall (Forall (fun b => b < 256)) (strings_of buf offs).
Proof.
  intros buf offs B. induction offs as [|a [|b t] IH]; [constructor|constructor|]. change (strings_of buf (a :: b :: t)) with (slice a b buf :: strings_of buf (b :: t)). constructor; [|exact IH]. unfold slice. apply Forall_forall. intros x Hx. apply (proj1 (Forall_forall _ _) B). rewrite <- (firstn_skipn a buf). apply in_or_app. right. rewrite <- (firstn_skipn (b - a) (skipn a buf)). apply in_or_app. now left.
Qed.
Lemma all_some_map : forall X Y (g : X -> option Y) (k : X -> Y) l, Forall (fun x => g x = Some (k x)) l -> all_some (map g l) = Some (map k l).
Proof. induction l as [|x l IH]; intros F; [reflexivity|]. apply Forall_cons_iff in F as [F0 F]. cbn [map all_some]. rewrite F0. cbn [obind]. now rewrite (IH F). Qed.
(* whatever compressed strings are read, in any selection, they come back *)
Theorem fsst_lossless : forall h order count term least tbl buf offs tbl' out oo, (forall l s, In s (order l) -> In s l) -> Forall (fun b => b < 256) buf ->
  compress h least (build h order count term) tbl buf offs = Some (tbl', out, oo) ->
  length (strings_of out oo) = length (strings_of buf offs) /\
  forall out2 oo2 sel, Forall (fun i => i < length (strings_of buf offs)) sel -> strings_of out2 oo2 = map (fun i => nth i (strings_of out oo) []) sel -> oo2 <> [] ->
  exists b o, decompress tbl' out2 oo2 = Some (b, o) /\ strings_of b o = map (fun i => nth i (strings_of buf offs) []) sel.
Proof.
  intros h order count term least tbl buf offs tbl' out oo OI B H. unfold compress in H. destruct (length tbl =? table_size) eqn:LT; [|discriminate H]. apply Nat.eqb_eq in LT. cbn [negb] in H. destruct (N.of_nat (length buf) <? least)%N.
  - injection H as <- <- <-. split; [reflexivity|]. intros out2 oo2 sel SEL E NE. destruct (table_ok tbl false 512 256 0 (fun _ => []) LT) as (d & I1 & I2 & _); [lia|intros c Hc; lia|]. exists out2, oo2. split; [|exact E]. unfold decompress. rewrite I1. cbn [obind]. now rewrite I2.
  - destruct (build h order count term) as [f|] eqn:EB; [|discriminate H]. destruct (build_good _ _ _ _ _ OI EB) as [G _]. destruct offs as [|o0 offs]; [discriminate H|]. pose proof (strings_bytes buf (o0 :: offs) B) as SB. set (strs := strings_of buf (o0 :: offs)) in *. clearbody strs. injection H as <- <- <-.
    pose proof (strings_offsets (map (encode_string h f) strs) []) as SO. cbn [app length] in SO. rewrite SO. split; [apply map_length|]. intros out2 oo2 sel SEL E NE.
    destruct (table_ok tbl true (f_suffix f) (f_term f) (f_n f) (f_syms f) LT (h_n f G)) as (d & I1 & I2 & I3 & _); [intros c Hc; apply (h_sym f G c Hc)|]. unfold decompress. rewrite I1. cbn [obind]. rewrite I2. cbn [negb]. destruct oo2 as [|x oo2]; [congruence|]. rewrite E, map_map.
    rewrite (all_some_map nat (list nat) (fun i => decode_string (S (length (nth i (map (encode_string h f) strs) []))) d (nth i (map (encode_string h f) strs) [])) (fun i => nth i strs [])).
    + cbn [omap]. eexists. eexists. split; [reflexivity|]. apply (strings_offsets _ []).
    + eapply Forall_impl; [|exact SEL]. intros i Hi. cbn beta. assert (EN : nth i (map (encode_string h f) strs) [] = encode_string h f (nth i strs [])). { rewrite (nth_indep _ [] (encode_string h f [])) by (rewrite map_length; exact Hi). apply map_nth. } rewrite EN. apply string_ok; [exact G|exact I3| |lia]. apply (proj1 (Forall_forall _ _) SB). now apply nth_In.
Qed.
(* everything at once *)
Theorem fsst_roundtrip : forall h order count term least tbl buf offs tbl' out oo, (forall l s, In s (order l) -> In s l) -> Forall (fun b => b < 256) buf -> offs <> [] ->
  compress h least (build h order count term) tbl buf offs = Some (tbl', out, oo) -> exists b o, decompress tbl' out oo = Some (b, o) /\ strings_of b o = strings_of buf offs.
Proof.
  intros h order count term least tbl buf offs tbl' out oo OI B NE H. destruct (fsst_lossless _ _ _ _ _ _ _ _ _ _ _ OI B H) as [LE R]. assert (ID : forall (l : list (list nat)), map (fun i => nth i l []) (seq 0 (length l)) = l).
  { intros l. apply (nth_ext _ _ [] []); [now rewrite map_length, seq_length|]. intros n Hn. rewrite map_length, seq_length in Hn. rewrite (nth_indep _ [] (nth 0 l [])) by (rewrite map_length, seq_length; exact Hn). rewrite (map_nth (fun i => nth i l [])), seq_nth by exact Hn. reflexivity. }
  destruct (R out oo (seq 0 (length (strings_of buf offs)))) as (b & o & E1 & E2).
  - apply Forall_forall. intros i Hi. apply in_seq in Hi. lia.
  - rewrite <- LE. now rewrite ID.
  - unfold compress in H. destruct (negb (length tbl =? table_size)); [discriminate H|]. destruct (_ <? least)%N; [injection H as _ _ <-; exact NE|]. destruct (build h order count term); [|discriminate H]. destruct offs; [discriminate H|]. injection H as _ _ <-. destruct (map _ _); discriminate.
  - exists b, o. split; [exact E1|]. now rewrite E2, ID.
Qed.
(* the callers' buffers are large enough: twice the input for compressing, eight times for decompressing *)
Theorem compress_room : forall h order count term f s, (forall l x, In x (order l) -> In x l) -> build h order count term = Some f -> Forall (fun b => b < 256) s -> length (encode_string h f s) <= 2 * length s.
Proof.
  intros h order count term f s OI EB B. destruct (build_good _ _ _ _ _ OI EB) as [G _]. destruct (string_ok h f G {| d_syms := f_syms f; d_lens := fun c => length (f_syms f c); d_switch := true |}) with (s := s) (fuel := S (length (encode_string h f s))) as [_ L]; [intros c _; apply firstn_all|exact B|lia|exact L].
Qed.
Theorem decompress_room : forall tbl d l fuel o, init_decoder tbl = Some d -> decode_string fuel d l = Some o -> length o <= 8 * length l.
Proof.
  intros tbl d l fuel o I. assert (W : forall c, length (out_sym d c) <= 8). { intros c. unfold init_decoder in I. match type of I with (if ?b then _ else _) = _ => destruct b; [discriminate I|] end. injection I as <-. unfold out_sym. cbn [d_lens d_syms]. rewrite firstn_length. destruct (c <? nth 0 tbl 0); [unfold slice; rewrite firstn_length; lia|cbn; lia]. }
  clear I. revert l o. induction fuel as [|fuel IH]; intros l o H; [discriminate H|]. cbn [decode_string] in H.
  assert (OM : forall r (g : list nat -> list nat) (w : nat), omap g (decode_string fuel d r) = Some o -> (forall x, length (g x) <= w + length x) -> length o <= w + 8 * length r). { intros r g w E Hg. destruct (decode_string fuel d r) as [x|] eqn:ED; [|discriminate E]. injection E as <-. specialize (IH _ _ ED). specialize (Hg x). lia. }
  destruct l as [|a [|b [|c [|e r]]]].
  - injection H as <-. cbn. lia.
  - injection H as <-. pose proof (W a). cbn [length]. lia.
  - pose proof (W a). pose proof (W b). destruct (a =? 255); [injection H as <-; cbn; lia|]. destruct (b =? 255); [discriminate H|]. injection H as <-. rewrite app_length. cbn [length]. lia.
  - pose proof (W a). pose proof (W b). pose proof (W c). destruct (a =? 255); [injection H as <-; cbn [length]; lia|]. destruct (b =? 255); injection H as <-; rewrite ?app_length; cbn [length]; lia.
  - pose proof (W a). pose proof (W b). pose proof (W c). pose proof (W e). cbn [length]. destruct (esc_bit a); [apply OM with (w := 1) in H; [cbn [length] in H; lia|intros x; cbn; lia]|].
    destruct (esc_bit b); [apply OM with (w := 9) in H; [cbn [length] in H; lia|intros x; rewrite app_length; cbn [length]; lia]|]. destruct (esc_bit c); [apply OM with (w := 17) in H; [lia|intros x; rewrite !app_length; cbn [length]; lia]|].
    destruct (esc_bit e); [destruct r as [|x r]; [discriminate H|]; apply OM with (w := 25) in H; [cbn [length]; lia|intros y; rewrite !app_length; cbn [length]; lia]|]. apply OM with (w := 32) in H; [lia|intros x; rewrite !app_length; lia].
Qed.
