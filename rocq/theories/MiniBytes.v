(* Bytes of mini-block pages: chunks, their metadata, the repetition index. *)
From Coq Require Import List Arith NArith ZArith Bool Lia.
From Verif Require Import Lib SerdeModel SerdeProofs RepDefModel FullZipModel FullZipProofs FullZipRead FullZipPage FullZipVar MiniModel MiniProofs MiniSched.
Import ListNotations.
Local Open Scope nat_scope.

Lemma pad8_ok : forall n, (n + pad8 n) mod 8 = 0.
Proof.
  intros n. unfold pad8. rewrite (Nat.div_mod n 8) at 1 by lia. assert (B := Nat.mod_upper_bound n 8 ltac:(lia)). set (r := n mod 8) in *. rewrite <- Nat.add_assoc. rewrite (Nat.mul_comm 8), Nat.add_comm, Nat.mod_add by lia.
  do 8 (destruct r as [|r]; [reflexivity|]). lia.
Qed.
Lemma u16s_ok : forall l, Forall (fun x => (N.of_nat x < 65536)%N) l -> u16s (level_bytes l) = l.
Proof.
  intros l F. unfold u16s, level_bytes. rewrite (flat_map_concat_map _ l). assert (E : map (fun x => le_bytes 2 (trunc 2 (N.of_nat x))) l = map (le_bytes 2) (map N.of_nat l)).
  { rewrite map_map. apply map_ext_in. intros x X. rewrite Forall_forall in F. rewrite trunc_id by (apply F; exact X). reflexivity. }
  rewrite E, <- flat_map_concat_map. rewrite chunks_exact_flat by lia. rewrite <- (map_map of_le_bytes N.to_nat), map_of_le.
  - rewrite map_map. rewrite (map_ext _ (fun x => x)) by (intros; apply Nat2N.id). apply map_id.
  - apply Forall_forall. intros x X. apply in_map_iff in X as [y [<- Y]]. rewrite Forall_forall in F. apply F. exact Y.
Qed.
Lemma level_bytes_length : forall l, length (level_bytes l) = 2 * length l.
Proof. induction l as [|x l IH]; [reflexivity|]. unfold level_bytes in *. cbn [flat_map]. rewrite app_length, le_bytes_length, IH. cbn [length]. lia. Qed.
Lemma u16_ok : forall n, (N.of_nat n < 65536)%N -> N.to_nat (of_le_bytes (le_bytes 2 (trunc 2 (N.of_nat n)))) = n.
Proof. intros n H. rewrite trunc_id by exact H. rewrite of_le_bytes_le by exact H. apply Nat2N.id. Qed.

(* ---- a chunk ---- *)
Lemma one_chunk_ok : forall log r d v b m, one_chunk log r d v = Some (b, m) -> b = chunk_bytes r d v /\ m = meta_word log b /\ length b mod 8 = 0 /\ 8 <= length b /\ (N.of_nat (length b) <= 16384)%N /\ (N.of_nat (length r) < 65535)%N /\ (N.of_nat (length d) < 65535)%N /\ length v <= length b.
Proof.
  intros log r d v b m H. unfold one_chunk in H. destruct (_ && _) eqn:C in H; [|discriminate]. apply andb_true_iff in C as [C C4]. apply andb_true_iff in C as [C C3]. apply andb_true_iff in C as [C1 C2].
  apply N.ltb_lt in C1, C2. apply N.leb_le in C3. apply Nat.eqb_eq in C4. injection H as <- <-. split; [reflexivity|]. split; [reflexivity|]. split; [exact C4|].
  assert (LB : 6 + length v <= length (chunk_bytes r d v)) by (unfold chunk_bytes; rewrite !app_length, !le_bytes_length; lia).
  split; [|split; [exact C3|split; [exact C1|split; [exact C2|lia]]]].
  destruct (Nat.le_gt_cases 8 (length (chunk_bytes r d v))) as [Q|Q]; [exact Q|]. rewrite Nat.mod_small in C4 by exact Q. lia.
Qed.
Lemma chunk_decode_ok : forall dec hr hd r d v n b m log, one_chunk log (level_bytes r) (level_bytes d) v = Some (b, m) ->
  Forall (fun x => (N.of_nat x < 65536)%N) r -> Forall (fun x => (N.of_nat x < 65536)%N) d ->
  chunk_decode dec hr hd b n = omap (fun vs => (if hr then Some r else None, if hd then Some d else None, vs)) (dec v n).
Proof.
  intros dec hr hd r d v n b m log H FR FD. destruct (one_chunk_ok _ _ _ _ _ _ H) as (-> & _ & _ & _ & BL & RL & DL & VL). clear H. set (R := level_bytes r) in *. set (D := level_bytes d) in *.
  assert (VN : (N.of_nat (length v) < 65536)%N) by lia. clear BL VL.
  unfold chunk_decode. unfold chunk_bytes. set (A := le_bytes 2 (trunc 2 (N.of_nat (length R)))). set (B := le_bytes 2 (trunc 2 (N.of_nat (length D)))). set (C := le_bytes 2 (trunc 2 (N.of_nat (length v)))).
  assert (LA : length A = 2) by apply le_bytes_length. assert (LB : length B = 2) by apply le_bytes_length. assert (LC : length C = 2) by apply le_bytes_length.
  set (h := A ++ B ++ C ++ R ++ D). set (bd := h ++ repeat 0%N (pad8 (length h)) ++ v). set (Z := repeat 0%N (pad8 (length bd))). set (Y := repeat 0%N (pad8 (length h))).
  assert (E : bd ++ Z = A ++ B ++ C ++ R ++ D ++ Y ++ v ++ Z) by (unfold bd, h, Y; rewrite <- !app_assoc; reflexivity). rewrite E. clear E.
  assert (S1 : sub 0 2 (A ++ B ++ C ++ R ++ D ++ Y ++ v ++ Z) = Some A) by (rewrite <- LA; apply sub_front). rewrite S1. cbn [obind].
  assert (S2 : sub 2 4 (A ++ B ++ C ++ R ++ D ++ Y ++ v ++ Z) = Some B) by (assert (Q := sub_mid A B (C ++ R ++ D ++ Y ++ v ++ Z)); rewrite LA, LB in Q; exact Q). rewrite S2. cbn [obind].
  assert (S3 : sub 4 6 (A ++ B ++ C ++ R ++ D ++ Y ++ v ++ Z) = Some C) by (assert (Q := sub_mid (A ++ B) C (R ++ D ++ Y ++ v ++ Z)); rewrite app_length, LA, LB, LC, <- app_assoc in Q; exact Q). rewrite S3. cbn [obind].
  unfold A, B, C. rewrite !u16_ok by lia. fold A B C. assert (RE : length R mod 2 = 0) by (unfold R; rewrite level_bytes_length, Nat.mul_comm; apply Nat.mod_mul; lia). rewrite RE, !Nat.add_0_r.
  assert (S4 : sub 6 (6 + length R) (A ++ B ++ C ++ R ++ D ++ Y ++ v ++ Z) = Some R) by (assert (Q := sub_mid (A ++ B ++ C) R (D ++ Y ++ v ++ Z)); rewrite !app_length, LA, LB, LC, <- !app_assoc in Q; exact Q). rewrite S4. cbn [obind].
  assert (S5 : sub (6 + length R) (6 + length R + length D) (A ++ B ++ C ++ R ++ D ++ Y ++ v ++ Z) = Some D) by (assert (Q := sub_mid (A ++ B ++ C ++ R) D (Y ++ v ++ Z)); rewrite !app_length, LA, LB, LC, <- !app_assoc in Q; exact Q). rewrite S5. cbn [obind].
  assert (LH : length h = 6 + length R + length D) by (unfold h; rewrite !app_length, LA, LB, LC; lia).
  assert (LY : 6 + length R + length D + pad8 (6 + length R + length D) = length (A ++ B ++ C ++ R ++ D ++ Y)) by (rewrite !app_length, LA, LB, LC; unfold Y; rewrite repeat_length, LH; lia). rewrite LY.
  assert (S6 : sub (length (A ++ B ++ C ++ R ++ D ++ Y)) (length (A ++ B ++ C ++ R ++ D ++ Y) + length v) (A ++ B ++ C ++ R ++ D ++ Y ++ v ++ Z) = Some v) by (assert (Q := sub_mid (A ++ B ++ C ++ R ++ D ++ Y) v Z); rewrite <- !app_assoc in Q; exact Q). rewrite S6. cbn [obind].
  unfold R, D. rewrite !u16s_ok by assumption. reflexivity.
Qed.
(* the word of metadata *)
Definition word_of (log : nat) (b : list N) : N := N.lor (N.shiftl (N.of_nat (length b / 8 - 1)) 4) (N.of_nat log).
Lemma word_split : forall a g, (g < 16)%N -> N.shiftr (N.lor (N.shiftl a 4) g) 4 = a /\ N.land (N.lor (N.shiftl a 4) g) 15 = g /\ N.lor (N.shiftl a 4) g = (a * 16 + g)%N.
Proof.
  intros a g H. assert (GS : N.shiftr g 4 = 0%N) by (rewrite N.shiftr_div_pow2; apply N.div_small; exact H).
  assert (D : N.land (N.shiftl a 4) g = 0%N).
  { apply N.bits_inj. intros n. rewrite N.land_spec, N.bits_0. destruct (N.lt_ge_cases n 4) as [Q|Q]; [rewrite N.shiftl_spec_low by exact Q; reflexivity|].
    apply andb_false_iff. right. replace n with (n - 4 + 4)%N by lia. rewrite <- N.shiftr_spec', GS. apply N.bits_0. }
  split; [|split].
  - rewrite N.shiftr_lor, N.shiftr_shiftl_l, N.sub_diag, N.shiftl_0_r, GS, N.lor_0_r by lia. reflexivity.
  - change 15%N with (N.ones 4). rewrite N.land_ones. rewrite <- N.lxor_lor by exact D. rewrite <- N.add_nocarry_lxor by exact D. rewrite N.shiftl_mul_pow2, N.add_comm, N.mod_add by discriminate. apply N.mod_small. exact H.
  - rewrite <- N.lxor_lor by exact D. rewrite <- N.add_nocarry_lxor by exact D. rewrite N.shiftl_mul_pow2. reflexivity.
Qed.
Lemma word_ok : forall log b, (N.of_nat log < 16)%N -> length b mod 8 = 0 -> 8 <= length b -> (N.of_nat (length b) <= 16384)%N ->
  (word_of log b < 65536)%N /\ (N.to_nat (N.shiftr (word_of log b) 4) + 1) * 8 = length b /\ N.to_nat (N.land (word_of log b) 15) = log.
Proof.
  intros log b HL M8 G8 L8. unfold word_of. destruct (word_split (N.of_nat (length b / 8 - 1)) (N.of_nat log) HL) as (W1 & W2 & W3). rewrite W1, W2, W3, !Nat2N.id.
  assert (D := Nat.div_mod (length b) 8 ltac:(lia)). rewrite M8 in D. set (q := length b / 8) in *. split; [lia|]. split; [lia|reflexivity].
Qed.

(* ---- all chunks ---- *)
(* the parts of compressed values: logarithm, bytes and values of every chunk *)
Record part := { t_log : nat; t_bytes : list N; t_vals : list (list N) }.
Record written := { w_part : part; w_items : list item; w_bytes : list N }.
Definition lvs (b : bool) (f : item -> nat) (c : list item) : list N := if b then level_bytes (map f c) else [].
Lemma write_ok : forall hr hd ps cs data out, length ps = length cs -> data = flat_map t_bytes ps ->
  write_chunks (map (fun t => (t_log t, length (t_bytes t))) ps) (map (lvs hr i_rep) cs) (map (lvs hd i_def) cs) data = Some out ->
  exists ws, map w_part ws = ps /\ map w_items ws = cs /\ fst out = flat_map w_bytes ws /\ snd out = flat_map (fun w => meta_word (t_log (w_part w)) (w_bytes w)) ws /\
    Forall (fun w => one_chunk (t_log (w_part w)) (lvs hr i_rep (w_items w)) (lvs hd i_def (w_items w)) (t_bytes (w_part w)) = Some (w_bytes w, meta_word (t_log (w_part w)) (w_bytes w))) ws.
Proof.
  induction ps as [|t ps IH]; intros cs data out LE DE W; destruct cs as [|c cs]; try discriminate LE; [injection W as <-; exists []; cbn; repeat split; constructor|].
  cbn [map write_chunks flat_map] in *. rewrite DE in W. destruct (length (t_bytes t ++ flat_map t_bytes ps) <? length (t_bytes t)); [discriminate|].
  rewrite skip_front, firstn_app, Nat.sub_diag, firstn_O, app_nil_r, firstn_all in W. destruct (one_chunk _ _ _ _) as [[b m]|] eqn:O; [|discriminate]. cbn [obind] in W.
  destruct (write_chunks _ _ _ _) as [[bs mts]|] eqn:WE; [|discriminate]. cbn [omap] in W. injection W as <-. injection LE as LE. destruct (IH cs _ _ LE eq_refl WE) as [ws (A & B & C & D & F)].
  destruct (one_chunk_ok _ _ _ _ _ _ O) as (_ & MM & _). exists ({| w_part := t; w_items := c; w_bytes := b |} :: ws). cbn [map flat_map w_part w_items w_bytes fst snd] in *. rewrite A, B, <- C, <- D, MM. repeat split; auto. constructor; [cbn [w_part w_items w_bytes]; rewrite O, MM; reflexivity|exact F].
Qed.
Fixpoint metas_of (pos : nat) (ws : list written) : list cmeta :=
  match ws with [] => [] | w :: t => {| c_values := length (t_vals (w_part w)); c_size := length (w_bytes w); c_pos := pos |} :: metas_of (pos + length (w_bytes w)) t end.
(* all chunks but the last tell their number of values *)
Fixpoint parts_ok (dec : list N -> nat -> option (list (list N))) (ps : list part) : Prop :=
  match ps with
  | [] => True
  | t :: r => (exists extra, dec (t_bytes t) (length (t_vals t)) = Some (t_vals t ++ extra)) /\ (N.of_nat (t_log t) < 16)%N /\
              match r with [] => t_log t = 0 | _ => t_log t <> 0 /\ length (t_vals t) = 2 ^ t_log t end /\ parts_ok dec r
  end.
Lemma metas_ok : forall dec ws pos before items, parts_ok dec (map w_part ws) -> Forall (fun w => length (w_bytes w) mod 8 = 0 /\ 8 <= length (w_bytes w) /\ (N.of_nat (length (w_bytes w)) <= 16384)%N) ws ->
  items = before + sumn (map (fun w => length (t_vals (w_part w))) ws) ->
  chunk_metas (map (fun w => word_of (t_log (w_part w)) (w_bytes w)) ws) pos before items = metas_of pos ws.
Proof.
  intros dec ws. induction ws as [|w ws IH]; intros pos before items P F I; [reflexivity|]. destruct P as (_ & P2 & P3 & P4). fold (map w_part ws) in *. inversion F as [|? ? (F1 & F2 & F3) F4]; subst.
  change (sumn (map (fun w0 => length (t_vals (w_part w0))) (w :: ws))) with (length (t_vals (w_part w)) + sumn (map (fun w0 => length (t_vals (w_part w0))) ws)) in *.
  cbn [map chunk_metas metas_of]. destruct (word_ok _ _ P2 F1 F2 F3) as (W1 & W2 & W3). rewrite W2, W3.
  assert (N : match map (fun w0 => word_of (t_log (w_part w0)) (w_bytes w0)) ws with [] => before + (length (t_vals (w_part w)) + sumn (map (fun w0 => length (t_vals (w_part w0))) ws)) - before | _ => 2 ^ t_log (w_part w) end = length (t_vals (w_part w))).
  { destruct ws as [|w1 ws]; [cbn; lia|]. cbn [map] in *. symmetry. apply P3. }
  rewrite N. f_equal. apply IH; auto. lia.
Qed.
Lemma meta_words : forall ws, Forall (fun w => (word_of (t_log (w_part w)) (w_bytes w) < 65536)%N) ws ->
  let m := flat_map (fun w => meta_word (t_log (w_part w)) (w_bytes w)) ws in map of_le_bytes (chunks_exact (length m) 2 m) = map (fun w => word_of (t_log (w_part w)) (w_bytes w)) ws.
Proof.
  intros ws F m. assert (E : m = flat_map (le_bytes 2) (map (fun w => word_of (t_log (w_part w)) (w_bytes w)) ws)).
  { unfold m. clear m. induction F as [|w ws W F IH]; [reflexivity|]. cbn [flat_map map]. rewrite IH. unfold meta_word at 1. fold (word_of (t_log (w_part w)) (w_bytes w)). rewrite trunc_id by exact W. reflexivity. }
  rewrite E, chunks_exact_flat by lia. apply map_of_le. apply Forall_forall. intros x X. apply in_map_iff in X as [w [<- J]]. rewrite Forall_forall in F. apply (F w J).
Qed.
Lemma metas_nth : forall ws pos k w, nth_error ws k = Some w -> exists a b, ws = a ++ w :: b /\ length a = k /\
  nth_error (metas_of pos ws) k = Some {| c_values := length (t_vals (w_part w)); c_size := length (w_bytes w); c_pos := pos + length (flat_map w_bytes a) |}.
Proof.
  induction ws as [|x ws IH]; intros pos k w E; destruct k as [|k]; try discriminate E.
  - injection E as ->. exists [], ws. cbn. rewrite Nat.add_0_r. auto.
  - cbn [nth_error] in E. destruct (IH (pos + length (w_bytes x)) k w E) as [a [b (A & B & C)]]. exists (x :: a), b. cbn [app length metas_of nth_error flat_map]. rewrite C, A, B, app_length, Nat.add_assoc. auto.
Qed.

(* ---- the repetition index ---- *)
Section Index.
Context (L : nat).
Lemma count_starts_eq : forall c, count_starts L (map i_rep c) = count L c.
Proof. induction c as [|x c IH]; [reflexivity|]. unfold count_starts, count, st in *. cbn [map filter]. destruct (i_rep x =? L); cbn [length]; now rewrite IH. Qed.
Lemma leftovers_pos : forall l n, 0 < n \/ l <> [] -> 0 < leftovers L n l.
Proof. induction l as [|r l IH]; intros n H; cbn; [destruct H; [auto|congruence]|]. destruct (r =? L); [lia|]. apply IH. left. lia. Qed.
Lemma leftovers_le : forall l n, leftovers L n l <= n + length l.
Proof. induction l as [|r l IH]; intros n; cbn; [lia|]. destruct (r =? L); [lia|]. specialize (IH (S n)). lia. Qed.
Lemma filter_le : forall A (f : A -> bool) l, length (filter f l) <= length l.
Proof. induction l as [|x l IH]; cbn; [lia|]. destruct (f x); cbn; lia. Qed.
Lemma count_tl : forall c, c <> [] -> count L c = count L (tl c) + (if inside L c then 0 else 1).
Proof. intros c H. destruct c as [|x c]; [congruence|]. cbn [tl inside]. unfold count at 1. cbn [filter]. destruct (st L x); cbn [negb length]; unfold count; lia. Qed.
(* the entry of the chunk [c] before the chunks [t] *)
Definition entry_ok (c : list item) (t : list (list item)) (x : nat * nat) : Prop :=
  if goes_on L t then fst x = count L (tl c) /\ 0 < snd x <= length c else fst x = count L (tl c) + 1 /\ snd x = 0.
Fixpoint entries_ok (cs : list (list item)) (xs : list (nat * nat)) : Prop :=
  match cs, xs with [], [] => True | c :: cs', x :: xs' => entry_ok c cs' x /\ entries_ok cs' xs' | _, _ => False end.
(* the entry as first written *)
Definition raw (c : list item) (t : list (list item)) : nat * nat := (count L (tl c) + match t with [] => 1 | _ => 0 end, match t with [] => 0 | _ => leftovers L 0 (rev (map i_rep c)) end).
Lemma index_go : forall cs c done idx, c <> [] -> index_of L false (map (map i_rep) cs) (raw c cs :: done) = Some idx -> Forall (fun d => d <> []) cs /\ exists xs, idx = rev done ++ xs /\ entries_ok (c :: cs) xs.
Proof.
  induction cs as [|d cs IH]; intros c done idx NE H.
  - cbn [map index_of] in H. injection H as <-. split; [constructor|]. exists [raw c []]. cbn [rev]. split; [reflexivity|]. cbn. unfold entry_ok, raw. cbn. auto.
  - cbn [map index_of] in H. destruct d as [|y d]; [discriminate|]. cbn [map] in H. cbn [obind] in H. unfold raw at 1 in H. cbn [fst snd] in H.
    assert (LP : 0 < leftovers L 0 (rev (map i_rep c))) by (apply leftovers_pos; right; intros Q; apply (f_equal (@length _)) in Q; rewrite rev_length, map_length in Q; destruct c; [congruence|discriminate]).
    assert (LQ := leftovers_le (rev (map i_rep c)) 0). rewrite rev_length, map_length in LQ.
    rewrite (proj2 (Nat.eqb_neq _ 0)) in H by lia.
    set (x := if i_rep y =? L then (count L (tl c) + 0 + 1, 0) else (count L (tl c) + 0, leftovers L 0 (rev (map i_rep c)))).
    assert (R : raw (y :: d) cs = (count_starts L (tl (i_rep y :: map i_rep d)) + (if match map (map i_rep) cs with [] => true | _ => false end then 1 else 0), if match map (map i_rep) cs with [] => true | _ => false end then 0 else leftovers L 0 (rev (i_rep y :: map i_rep d)))) by (unfold raw; cbn [tl]; rewrite count_starts_eq; destruct cs; reflexivity).
    assert (H' : index_of L false (map (map i_rep) cs) (raw (y :: d) cs :: x :: done) = Some idx) by (rewrite R; rewrite <- H; unfold x; destruct (i_rep y =? L); reflexivity).
    destruct (IH (y :: d) (x :: done) idx ltac:(discriminate) H') as [F [xs [E O]]]. split; [constructor; [discriminate|exact F]|]. exists (x :: xs). split; [rewrite E; cbn [rev]; rewrite <- app_assoc; reflexivity|].
    split; [|exact O]. unfold entry_ok. cbn [goes_on inside]. unfold st, x. destruct (i_rep y =? L); cbn [negb fst snd]; lia.
Qed.
Lemma index_written : forall c cs idx, c <> [] -> index_of L true (map (map i_rep) (c :: cs)) [] = Some idx -> Forall (fun d => d <> []) cs /\ entries_ok (c :: cs) idx.
Proof.
  intros c cs idx NE H. cbn [map index_of obind] in H. assert (R : raw c cs = (count_starts L (tl (map i_rep c)) + (if match map (map i_rep) cs with [] => true | _ => false end then 1 else 0), if match map (map i_rep) cs with [] => true | _ => false end then 0 else leftovers L 0 (rev (map i_rep c)))).
  { unfold raw. destruct c as [|x c]; [congruence|]. cbn [tl map]. rewrite count_starts_eq. destruct cs; reflexivity. }
  rewrite <- R in H. destruct (index_go cs c [] idx NE H) as [F [xs [E O]]]. cbn in E. subst idx. auto.
Qed.
Lemma index_decoded : forall cs xs first, Forall (fun d => d <> []) cs -> entries_ok cs xs -> decode_index (goes_on L cs) first xs = blocks_of L first cs.
Proof.
  induction cs as [|c cs IH]; intros xs first F O; destruct xs as [|[e p] xs]; try (destruct O; fail); [reflexivity|]. destruct O as [O1 O2]. inversion F as [|? ? F1 F2]; subst. unfold entry_ok in O1. cbn [fst snd] in O1. cbn [decode_index blocks_of].
  assert (T : (0 <? p) = goes_on L cs) by (destruct (goes_on L cs); [apply Nat.ltb_lt; lia|apply Nat.ltb_ge; lia]). rewrite T.
  assert (S : e + (if goes_on L cs then 1 else 0) - (if goes_on L (c :: cs) then 1 else 0) = count L c) by (rewrite (count_tl c F1); cbn [goes_on]; destruct (goes_on L cs), (inside L c); lia).
  rewrite S. cbn [goes_on]. f_equal. apply IH; assumption.
Qed.
Lemma entries_bound : forall cs xs, Forall (fun d => d <> []) cs -> entries_ok cs xs -> Forall (fun x => fst x <= length (concat cs) + 1 /\ snd x <= length (concat cs)) xs.
Proof.
  induction cs as [|c cs IH]; intros xs F O; destruct xs as [|x xs]; try (destruct O; fail); [constructor|]. destruct O as [O1 O2]. inversion F as [|? ? F1 F2]; subst. cbn [concat]. rewrite app_length.
  assert (B : count L (tl c) <= length c) by (unfold count; destruct c as [|y c]; [congruence|]; cbn [tl length]; assert (Q := filter_le _ (st L) c); lia).
  constructor; [unfold entry_ok in O1; destruct (goes_on L cs); lia|]. eapply Forall_impl; [|apply IH; eauto]. cbv beta. intros; lia.
Qed.
End Index.
Lemma pairs_ok : forall xs, Forall (fun x => (N.of_nat (fst x) < 18446744073709551616)%N /\ (N.of_nat (snd x) < 18446744073709551616)%N) xs ->
  pairs (map of_le_bytes (chunks_exact (length (u64_bytes xs)) 8 (u64_bytes xs))) = xs.
Proof.
  intros xs F. assert (E : u64_bytes xs = flat_map (le_bytes 8) (flat_map (fun x => [N.of_nat (fst x); N.of_nat (snd x)]) xs)).
  { induction F as [|x xs [X1 X2] F IH]; [reflexivity|]. unfold u64_bytes in *. cbn [flat_map]. rewrite IH, !trunc_id by assumption. cbn [flat_map app]. rewrite <- app_assoc. reflexivity. }
  rewrite E, chunks_exact_flat by lia. rewrite map_of_le.
  - clear. induction xs as [|[a b] xs IH]; [reflexivity|]. cbn [flat_map app pairs fst snd]. rewrite IH, !Nat2N.id. reflexivity.
  - clear E. induction F as [|x xs [X1 X2] F IH]; [constructor|]. cbn [flat_map app]. constructor; [exact X1|]. constructor; [exact X2|exact IH].
Qed.
