(* What is proved about File2Model: a file that was written is opened with the columns, buffers and descriptor written. *)
From Coq Require Import List Arith NArith Bool Lia ZifyBool ZifyN ZifyNat.
From Verif Require Import Lib PageModel SerdeModel SerdeProofs BitsModel File2Model.
From Verif Require BlobModel BlobProofs.
Import ListNotations.
Local Open Scope nat_scope.

(* ---- pieces of a list of bytes ---- *)
Lemma sub_mid : forall a b c s e, s = N.of_nat (length a) -> e = (s + N.of_nat (length b))%N -> sub_bytes (a ++ b ++ c) s e = Some b.
Proof.
  intros a b c s e -> ->. unfold sub_bytes. rewrite !app_length. replace ((_ <=? _) && (_ <=? _))%N with true by lia. f_equal. unfold slice.
  rewrite Nat2N.id. replace (N.to_nat (N.of_nat (length a) + N.of_nat (length b)) - length a) with (length b) by lia.
  rewrite skipn_app, skipn_all2 by lia. rewrite Nat.sub_diag. cbn [app skipn]. rewrite firstn_app, Nat.sub_diag, firstn_O, app_nil_r. now rewrite firstn_all.
Qed.
Lemma sub_ext : forall b x s e r, sub_bytes b s e = Some r -> sub_bytes (b ++ x) s e = Some r.
Proof.
  intros b x s e r H. unfold sub_bytes in *. rewrite app_length. destruct ((s <=? e) && (e <=? N.of_nat (length b)))%N eqn:E; [|discriminate H]. replace ((s <=? e) && _)%N with true by lia. injection H as <-. f_equal. unfold slice.
  rewrite skipn_app, firstn_app. rewrite skipn_length. replace (N.to_nat e - N.to_nat s - (length b - N.to_nat s)) with 0 by lia. now rewrite firstn_O, app_nil_r.
Qed.
Lemma read_mid : forall n a v c off, off = N.of_nat (length a) -> (v < 256 ^ n)%N -> read_le n (a ++ le_bytes (N.to_nat n) v ++ c) off = Some v.
Proof. intros n a v c off -> H. unfold read_le. rewrite sub_mid; [|reflexivity|rewrite le_bytes_length; lia]. cbn [omap]. rewrite of_le_bytes_le; [reflexivity|]. now rewrite N2Nat.id. Qed.
Lemma skipn_pre {A} : forall (a b : list A) n, n = length a -> skipn n (a ++ b) = b.
Proof. intros a b n ->. rewrite skipn_app, skipn_all, Nat.sub_diag. reflexivity. Qed.

(* ---- the footer ---- *)
Definition footer_bytes (f : footer) : list N :=
  le_bytes 8 (ft_meta f) ++ le_bytes 8 (ft_cmo f) ++ le_bytes 8 (ft_gbo f) ++ le_bytes 4 (ft_nglob f) ++ le_bytes 4 (ft_ncols f) ++ le_bytes 2 (ft_major f) ++ le_bytes 2 (ft_minor f) ++ MAGIC.
Definition footer_ok (f : footer) : Prop :=
  (ft_meta f < 2 ^ 64 /\ ft_cmo f < 2 ^ 64 /\ ft_gbo f < 2 ^ 64 /\ ft_nglob f < 2 ^ 32 /\ ft_ncols f < 2 ^ 32 /\ ft_major f < 2 ^ 16 /\ ft_minor f < 2 ^ 16)%N /\ ~ (ft_major f = 0 /\ ft_minor f = 2)%N.
Lemma footer_length : forall f, length (footer_bytes f) = 40.
Proof. intros f. unfold footer_bytes. rewrite !app_length, !le_bytes_length. reflexivity. Qed.
Lemma footer_read : forall x f, footer_ok f -> decode_footer (x ++ footer_bytes f) = Some f.
Proof.
  intros x f ((A1 & A2 & A3 & A4 & A5 & A6 & A7) & NL). unfold decode_footer. rewrite app_length, footer_length. replace (length x + 40 <? 40) with false by lia. rewrite skipn_pre by lia.
  set (m := ft_meta f) in *. set (c := ft_cmo f) in *. set (g := ft_gbo f) in *. set (ng := ft_nglob f) in *. set (nc := ft_ncols f) in *. set (ma := ft_major f) in *. set (mi := ft_minor f) in *.
  assert (E0 : footer_bytes f = [] ++ le_bytes 8 m ++ (le_bytes 8 c ++ le_bytes 8 g ++ le_bytes 4 ng ++ le_bytes 4 nc ++ le_bytes 2 ma ++ le_bytes 2 mi ++ MAGIC)) by reflexivity.
  assert (E1 : footer_bytes f = le_bytes 8 m ++ le_bytes 8 c ++ (le_bytes 8 g ++ le_bytes 4 ng ++ le_bytes 4 nc ++ le_bytes 2 ma ++ le_bytes 2 mi ++ MAGIC)) by reflexivity.
  assert (E2 : footer_bytes f = (le_bytes 8 m ++ le_bytes 8 c) ++ le_bytes 8 g ++ (le_bytes 4 ng ++ le_bytes 4 nc ++ le_bytes 2 ma ++ le_bytes 2 mi ++ MAGIC)) by (rewrite E1, <- !app_assoc; reflexivity).
  assert (E3 : footer_bytes f = (le_bytes 8 m ++ le_bytes 8 c ++ le_bytes 8 g) ++ le_bytes 4 ng ++ (le_bytes 4 nc ++ le_bytes 2 ma ++ le_bytes 2 mi ++ MAGIC)) by (rewrite E1, <- !app_assoc; reflexivity).
  assert (E4 : footer_bytes f = (le_bytes 8 m ++ le_bytes 8 c ++ le_bytes 8 g ++ le_bytes 4 ng) ++ le_bytes 4 nc ++ (le_bytes 2 ma ++ le_bytes 2 mi ++ MAGIC)) by (rewrite E1, <- !app_assoc; reflexivity).
  assert (E5 : footer_bytes f = (le_bytes 8 m ++ le_bytes 8 c ++ le_bytes 8 g ++ le_bytes 4 ng ++ le_bytes 4 nc) ++ le_bytes 2 ma ++ (le_bytes 2 mi ++ MAGIC)) by (rewrite E1, <- !app_assoc; reflexivity).
  assert (E6 : footer_bytes f = (le_bytes 8 m ++ le_bytes 8 c ++ le_bytes 8 g ++ le_bytes 4 ng ++ le_bytes 4 nc ++ le_bytes 2 ma) ++ le_bytes 2 mi ++ MAGIC) by (rewrite E1, <- !app_assoc; reflexivity).
  assert (E7 : footer_bytes f = (le_bytes 8 m ++ le_bytes 8 c ++ le_bytes 8 g ++ le_bytes 4 ng ++ le_bytes 4 nc ++ le_bytes 2 ma ++ le_bytes 2 mi) ++ MAGIC) by (rewrite E1, <- !app_assoc; reflexivity).
  pose proof (read_mid 8 [] m (le_bytes 8 c ++ le_bytes 8 g ++ le_bytes 4 ng ++ le_bytes 4 nc ++ le_bytes 2 ma ++ le_bytes 2 mi ++ MAGIC) 0%N eq_refl A1) as R0. change (N.to_nat 8) with 8 in R0. rewrite <- E0 in R0.
  pose proof (read_mid 8 (le_bytes 8 m) c (le_bytes 8 g ++ le_bytes 4 ng ++ le_bytes 4 nc ++ le_bytes 2 ma ++ le_bytes 2 mi ++ MAGIC) 8%N eq_refl A2) as R1. change (N.to_nat 8) with 8 in R1. rewrite <- E1 in R1.
  pose proof (read_mid 8 (le_bytes 8 m ++ le_bytes 8 c) g (le_bytes 4 ng ++ le_bytes 4 nc ++ le_bytes 2 ma ++ le_bytes 2 mi ++ MAGIC) 16%N eq_refl A3) as R2. change (N.to_nat 8) with 8 in R2. rewrite <- E2 in R2.
  pose proof (read_mid 4 (le_bytes 8 m ++ le_bytes 8 c ++ le_bytes 8 g) ng (le_bytes 4 nc ++ le_bytes 2 ma ++ le_bytes 2 mi ++ MAGIC) 24%N eq_refl A4) as R3. change (N.to_nat 4) with 4 in R3. rewrite <- E3 in R3.
  pose proof (read_mid 4 (le_bytes 8 m ++ le_bytes 8 c ++ le_bytes 8 g ++ le_bytes 4 ng) nc (le_bytes 2 ma ++ le_bytes 2 mi ++ MAGIC) 28%N eq_refl A5) as R4. change (N.to_nat 4) with 4 in R4. rewrite <- E4 in R4.
  pose proof (read_mid 2 (le_bytes 8 m ++ le_bytes 8 c ++ le_bytes 8 g ++ le_bytes 4 ng ++ le_bytes 4 nc) ma (le_bytes 2 mi ++ MAGIC) 32%N eq_refl A6) as R5. change (N.to_nat 2) with 2 in R5. rewrite <- E5 in R5.
  pose proof (read_mid 2 (le_bytes 8 m ++ le_bytes 8 c ++ le_bytes 8 g ++ le_bytes 4 ng ++ le_bytes 4 nc ++ le_bytes 2 ma) mi MAGIC 34%N eq_refl A7) as R6. change (N.to_nat 2) with 2 in R6. rewrite <- E6 in R6.
  rewrite R0, R1, R2, R3, R4, R5, R6. cbn [obind].
  replace ((ma =? 0) && (mi =? 2))%N with false by lia. rewrite E7, skipn_pre by reflexivity. destruct (list_eq_dec N.eq_dec MAGIC MAGIC) as [_|X]; [|congruence]. unfold m, c, g, ng, nc, ma, mi. now destruct f.
Qed.

(* ---- reading the end of a file ---- *)
Lemma tail_from_ok : forall block file start, (start <= N.of_nat (length file))%N -> tail_from (read_tail block file) start file = Some (skipn (N.to_nat start) file).
Proof.
  intros block file start H. unfold tail_from, read_tail. set (k := length file - block). replace (_ <? _)%N with false by lia. rewrite skipn_length.
  destruct (N.of_nat (length file) - start <=? N.of_nat (length file - k))%N eqn:E.
  - f_equal. rewrite skipn_skipn'. f_equal. unfold k in *. lia.
  - unfold sub_bytes. replace ((_ <=? _) && (_ <=? _))%N with true by (unfold k in *; lia). cbn [omap]. f_equal. unfold slice.
    replace (N.to_nat (N.of_nat (length file) - (N.of_nat (length file) - start))) with (N.to_nat start) by lia.
    match goal with |- firstn ?x _ ++ _ = _ => replace x with (k - N.to_nat start) by (unfold k in *; lia) end.
    replace (skipn k file) with (skipn (k - N.to_nat start) (skipn (N.to_nat start) file)) by (rewrite skipn_skipn'; f_equal; unfold k in *; lia). apply firstn_skipn.
Qed.
Definition pair_ok (q : N * N) : Prop := (fst q < 2 ^ 64 /\ snd q < 2 ^ 64)%N.
Lemma pair_length : forall q, length (pair_bytes q) = 16.
Proof. intros q. unfold pair_bytes. now rewrite app_length, !le_bytes_length. Qed.
Lemma pairs_length : forall l, length (flat_map pair_bytes l) = 16 * length l.
Proof. induction l as [|q l IH]; [reflexivity|]. cbn [flat_map length]. rewrite app_length, pair_length, IH. lia. Qed.
Lemma pair_read : forall pre q rest off, off = N.of_nat (length pre) -> pair_ok q -> read_le 8 (pre ++ pair_bytes q ++ rest) off = Some (fst q) /\ read_le 8 (pre ++ pair_bytes q ++ rest) (off + 8)%N = Some (snd q).
Proof.
  intros pre q rest off -> [A B]. unfold pair_bytes. split.
  - rewrite <- app_assoc. apply (read_mid 8 pre (fst q) (le_bytes 8 (snd q) ++ rest)); [reflexivity|exact A].
  - rewrite <- app_assoc, app_assoc. apply (read_mid 8 (pre ++ le_bytes 8 (fst q)) (snd q) rest); [|exact B]. rewrite app_length, le_bytes_length. lia.
Qed.
Lemma gbo_read : forall l pre rest off v, off = N.of_nat (length pre) -> Forall pair_ok l -> Forall (fun q => aligned_ok v (fst q) = true) l -> decode_gbo (length l) (pre ++ flat_map pair_bytes l ++ rest) off v = Some l.
Proof.
  induction l as [|q l IH]; intros pre rest off v E P A; [reflexivity|]. apply Forall_cons_iff in P as [P0 P]. apply Forall_cons_iff in A as [A0 A]. cbn [length decode_gbo flat_map]. rewrite <- app_assoc.
  destruct (pair_read pre q (flat_map pair_bytes l ++ rest) off E P0) as [-> R2]. cbn [obind]. rewrite A0, R2. cbn [obind]. rewrite app_assoc. rewrite IH; auto.
  - cbn [omap]. now destruct q.
  - rewrite app_length, pair_length. lia.
Qed.

Section Codec.
  Variable enc_col : cmeta -> list N.
  Variable dec_col : list N -> option cmeta.

  (* ---- the metadata of the columns ---- *)
  Definition len_of (c : cmeta) : N := N.of_nat (length (enc_col c)).
  Fixpoint metas_at (n : N) (cols : list cmeta) : list (N * N) := match cols with [] => [] | c :: t => (n, len_of c) :: metas_at (n + len_of c)%N t end.
  Lemma put_metas_eq : forall cols out, put_metas enc_col out cols = (metas_at (pos_of out) cols, out ++ flat_map enc_col cols).
  Proof.
    induction cols as [|c cols IH]; intros out; [cbn; now rewrite app_nil_r|]. cbn [put_metas metas_at flat_map]. rewrite IH, <- app_assoc. f_equal. f_equal. f_equal. unfold pos_of, len_of. rewrite app_length. lia.
  Qed.
  Lemma metas_length : forall cols n, length (metas_at n cols) = length cols.
  Proof. induction cols as [|c cols IH]; intros n; [reflexivity|]. cbn. now rewrite IH. Qed.
  Lemma metas_ok : forall cols n, (n + N.of_nat (length (flat_map enc_col cols)) < 2 ^ 64)%N -> Forall pair_ok (metas_at n cols).
  Proof.
    induction cols as [|c cols IH]; intros n H; [constructor|]. cbn [flat_map metas_at] in *. rewrite app_length in H. constructor; [split; cbn [fst snd]; unfold len_of; lia|]. apply IH. unfold len_of. lia.
  Qed.
  Lemma read_cols_ok : forall todo pre prec idx rest start tail, Forall (fun c => dec_col (enc_col c) = Some c) todo ->
    (start + N.of_nat (length prec) + N.of_nat (length (flat_map enc_col todo)) < 2 ^ 64)%N -> (N.of_nat (idx + length todo) < 2 ^ 28)%N -> length pre = 16 * idx ->
    read_cols dec_col idx (length todo) (pre ++ flat_map pair_bytes (metas_at (start + N.of_nat (length prec)) todo) ++ rest) (prec ++ flat_map enc_col todo ++ tail) start = Some todo.
  Proof.
    induction todo as [|c todo IH]; intros pre prec idx rest start tail D B I L; [reflexivity|]. apply Forall_cons_iff in D as [D0 D]. cbn [length metas_at flat_map read_cols] in *. rewrite app_length in B.
    change (2 ^ 28)%N with 268435456%N in I. rewrite N.mod_small by (change (2 ^ 32)%N with 4294967296%N; lia). rewrite <- !app_assoc.
    match goal with |- context [pre ++ pair_bytes ?q ++ ?r] => destruct (pair_read pre q r (N.of_nat idx * 16)%N) as [-> R2]; [lia|split; cbn [fst snd]; unfold len_of; lia|] end. cbn [obind]. rewrite R2. cbn [obind fst snd].
    replace (_ <? _)%N with false by lia. rewrite sub_mid; [|lia|unfold len_of; lia]. cbn [obind]. rewrite D0. cbn [obind].
    rewrite (app_assoc pre), (app_assoc prec). replace (start + N.of_nat (length prec) + len_of c)%N with (start + N.of_nat (length (prec ++ enc_col c)))%N by (rewrite app_length; unfold len_of; lia).
    rewrite IH; auto.
    - rewrite app_length. lia.
    - change (2 ^ 28)%N with 268435456%N. lia.
    - rewrite app_length, pair_length. lia.
  Qed.

  (* ---- a file behind its data ---- *)
  Definition footer_of (out : list N) (gbo : list (N * N)) (cols : list cmeta) (ncols : N) (nums : N * N) : footer :=
    {| ft_meta := pos_of out; ft_cmo := pos_of (out ++ flat_map enc_col cols); ft_gbo := pos_of (out ++ flat_map enc_col cols ++ flat_map pair_bytes (metas_at (pos_of out) cols));
       ft_nglob := N.of_nat (length gbo); ft_ncols := ncols; ft_major := fst nums; ft_minor := snd nums |}.
  Lemma put_footer_eq : forall out gbo cols ncols nums, put_footer enc_col out gbo cols ncols nums =
    out ++ (flat_map enc_col cols ++ flat_map pair_bytes (metas_at (pos_of out) cols)) ++ flat_map pair_bytes gbo ++ footer_bytes (footer_of out gbo cols ncols nums).
  Proof. intros out gbo cols ncols nums. unfold put_footer. rewrite put_metas_eq. unfold footer_bytes, footer_of. cbn [ft_meta ft_cmo ft_gbo ft_nglob ft_ncols ft_major ft_minor]. rewrite <- !app_assoc. reflexivity. Qed.
  Lemma columns_read : forall out gbo cols nums, Forall (fun c => dec_col (enc_col c) = Some c) cols -> (pos_of (out ++ flat_map enc_col cols) < 2 ^ 64)%N -> (N.of_nat (length cols) < 2 ^ 28)%N ->
    read_all_columns dec_col (flat_map enc_col cols ++ flat_map pair_bytes (metas_at (pos_of out) cols)) (footer_of out gbo cols (N.of_nat (length cols)) nums) = Some cols.
  Proof.
    intros out gbo cols nums D B I. unfold read_all_columns. cbn [footer_of ft_ncols ft_meta]. rewrite app_length, pairs_length, metas_length. replace (_ <? _)%N with false by lia. rewrite Nat2N.id.
    replace (N.to_nat (16 * N.of_nat (length cols))) with (16 * length cols) by lia. rewrite skipn_pre by lia.
    pose proof (read_cols_ok cols [] [] 0 [] (pos_of out) (flat_map pair_bytes (metas_at (pos_of out) cols)) D) as R. cbn [app length] in R. rewrite app_nil_r in R. rewrite N.add_0_r in R. apply R; [|exact I|reflexivity].
    unfold pos_of in *. rewrite app_length in B. lia.
  Qed.

  Lemma numbers_ok : forall v21, (fst (numbers v21) < 65536 /\ snd (numbers v21) < 65536)%N /\ ~ (fst (numbers v21) = 0 /\ snd (numbers v21) = 2)%N /\
    version_of (fst (numbers v21)) (snd (numbers v21)) = Some (if v21 then F21 else F20).
  Proof. intros [|]; cbn [numbers fst snd]; (split; [split; reflexivity|split; [intros [X Y]; discriminate|reflexivity]]). Qed.
  Lemma open_footer : forall block out desc gbo cols v21, 40 <= block -> Forall (fun c => dec_col (enc_col c) = Some c) cols ->
    let g := (pos_of out, N.of_nat (length desc)) :: gbo in let v := if v21 : bool then F21 else F20 in
    let file := put_footer enc_col (out ++ desc) g cols (N.of_nat (length cols)) (numbers v21) in
    (N.of_nat (length file) < 2 ^ 64)%N -> (N.of_nat (length g) < 2 ^ 32)%N -> (N.of_nat (length cols) < 2 ^ 28)%N ->
    Forall pair_ok gbo -> Forall (fun q => aligned_ok v (fst q) = true) g -> cols_ok v cols = true ->
    open_file dec_col block file = Some {| op_desc := desc; op_cols := cols; op_glob := g; op_version := v |}.
  Proof.
    intros block out desc gbo cols v21 BL D g v file LF LG LC PG AG CO.
    set (o1 := out ++ desc) in *. set (M := flat_map enc_col cols). set (C := flat_map pair_bytes (metas_at (pos_of o1) cols)). set (G := flat_map pair_bytes g). set (f := footer_of o1 g cols (N.of_nat (length cols)) (numbers v21)).
    assert (EF : file = o1 ++ (M ++ C) ++ G ++ footer_bytes f) by apply put_footer_eq.
    assert (FL : length file = length out + length desc + length M + length C + length G + 40) by (rewrite EF; unfold o1; rewrite !app_length, footer_length; lia).
    assert (FO : footer_ok f).
    { unfold f, footer_ok, footer_of, pos_of. cbn [ft_meta ft_cmo ft_gbo ft_nglob ft_ncols ft_major ft_minor]. fold (pos_of o1) M C. unfold o1. rewrite !app_length.
      change (2 ^ 28)%N with 268435456%N in LC. change (2 ^ 32)%N with 4294967296%N in *. change (2 ^ 16)%N with 65536%N. change (2 ^ 64)%N with 18446744073709551616%N in *. destruct (numbers_ok v21) as ([U1 U2] & U3 & _). unfold pos_of. rewrite ?app_length. repeat split; try lia; assumption. }
    unfold open_file.
    assert (ET : exists x, read_tail block file = x ++ footer_bytes f).
    { unfold read_tail. exists (skipn (length file - block) (o1 ++ (M ++ C) ++ G)). rewrite EF at 2. rewrite (app_assoc (M ++ C)), (app_assoc o1), skipn_app. f_equal.
      match goal with |- skipn ?n _ = _ => replace n with 0; [reflexivity|] end. rewrite FL. unfold o1. rewrite !app_length. lia. }
    destruct ET as [x ET]. rewrite ET at 1. rewrite footer_read by exact FO. cbn [obind]. unfold f at 1 2. cbn [footer_of ft_major ft_minor].
    destruct (numbers_ok v21) as (_ & _ & U4). rewrite U4. fold v. cbn [obind].
    assert (PG' : ft_gbo f = N.of_nat (length (o1 ++ M ++ C))) by reflexivity.
    rewrite tail_from_ok by (rewrite PG', FL; unfold o1; rewrite !app_length; lia). cbn [obind].
    assert (SG : skipn (N.to_nat (ft_gbo f)) file = [] ++ G ++ footer_bytes f). { rewrite PG', Nat2N.id, EF, (app_assoc o1 (M ++ C)). now apply skipn_pre. }
    rewrite SG. assert (NG : N.to_nat (ft_nglob f) = length g) by (unfold f; cbn [footer_of ft_nglob]; apply Nat2N.id). rewrite NG.
    unfold G. rewrite gbo_read; [|reflexivity| |exact AG].
    2:{ constructor; [|exact PG]. split; cbn [fst snd]; unfold pos_of; lia. }
    cbn [obind]. unfold g at 1. rewrite tail_from_ok by (rewrite FL; unfold pos_of; lia). cbn [obind].
    assert (SA : skipn (N.to_nat (pos_of out)) file = [] ++ desc ++ ((M ++ C) ++ G ++ footer_bytes f)). { unfold pos_of. rewrite Nat2N.id, EF. unfold o1. rewrite <- app_assoc. now apply skipn_pre. }
    rewrite SA. rewrite sub_mid by (cbn [length]; lia). cbn [obind app].
    replace ((ft_meta f <? pos_of out) || (ft_gbo f <? pos_of out))%N with false.
    2:{ rewrite PG'. unfold f. cbn [footer_of ft_meta]. unfold o1, pos_of. rewrite !app_length. lia. }
    rewrite (sub_mid desc (M ++ C)).
    2:{ unfold f. cbn [footer_of ft_meta]. unfold o1, pos_of. rewrite app_length. lia. }
    2:{ rewrite PG'. unfold f. cbn [footer_of ft_meta]. unfold o1, pos_of. rewrite !app_length. lia. }
    cbn [obind]. unfold M, C, f. rewrite columns_read; [|exact D| |exact LC].
    - cbn [obind]. now rewrite CO.
    - fold M. unfold o1, pos_of. rewrite !app_length. lia.
  Qed.
  (* encoded batches *)
  Lemma mini_footer : forall data cols, Forall (fun c => dec_col (enc_col c) = Some c) cols -> (N.of_nat (length cols) < 2 ^ 28)%N -> (N.of_nat (length (concat_footer enc_col data cols None)) < 2 ^ 64)%N ->
    read_mini dec_col (concat_footer enc_col data cols None) = if cols_ok F20 cols then Some cols else None.
  Proof.
    intros data cols D LC LF. unfold concat_footer in *. rewrite put_footer_eq in *. set (M := flat_map enc_col cols) in *. set (C := flat_map pair_bytes (metas_at (pos_of data) cols)) in *. set (f := footer_of data [] cols (N.of_nat (length cols)) (2, 0)%N) in *. cbn [flat_map app] in *.
    rewrite !app_length, footer_length in LF. assert (FO : footer_ok f).
    { unfold f, footer_ok, footer_of, pos_of. cbn [ft_meta ft_cmo ft_gbo ft_nglob ft_ncols ft_major ft_minor length fst snd]. fold (pos_of data) M C. rewrite !app_length.
      change (2 ^ 28)%N with 268435456%N in LC. change (2 ^ 32)%N with 4294967296%N in *. change (2 ^ 16)%N with 65536%N. change (2 ^ 64)%N with 18446744073709551616%N in *. unfold pos_of; rewrite ?app_length; repeat split; lia. }
    unfold read_mini. rewrite (app_assoc data) at 1. rewrite footer_read by exact FO. cbn [obind]. rewrite sub_mid; [|reflexivity|unfold f; cbn [footer_of ft_gbo ft_meta]; fold M C; unfold pos_of; rewrite !app_length; lia]. cbn [obind].
    unfold M, C, f. rewrite columns_read; [|assumption| |assumption]; [cbn [obind footer_of ft_major ft_minor fst snd version_of]; reflexivity|]. fold M. unfold pos_of. rewrite app_length. lia.
  Qed.
  Lemma described_footer : forall data cols desc, Forall (fun c => dec_col (enc_col c) = Some c) cols -> (N.of_nat (length cols) < 2 ^ 28)%N -> (N.of_nat (length (concat_footer enc_col data cols (Some desc))) < 2 ^ 64)%N ->
    read_self_described dec_col (concat_footer enc_col data cols (Some desc)) = if cols_ok F20 cols then Some (desc, cols) else None.
  Proof.
    intros data cols desc D LC LF. unfold concat_footer in *. rewrite put_footer_eq in *. set (o1 := data ++ desc) in *. set (g := [(pos_of data, N.of_nat (length desc))]) in *. set (M := flat_map enc_col cols) in *. set (C := flat_map pair_bytes (metas_at (pos_of o1) cols)) in *. set (G := flat_map pair_bytes g) in *. set (f := footer_of o1 g cols (N.of_nat (length cols)) (2, 0)%N) in *.
    rewrite !app_length, footer_length in LF. assert (LO : length o1 = length data + length desc) by apply app_length. assert (FO : footer_ok f).
    { unfold f, footer_ok, footer_of, pos_of. cbn [ft_meta ft_cmo ft_gbo ft_nglob ft_ncols ft_major ft_minor length fst snd g]. fold (pos_of o1) M C. rewrite !app_length.
      change (2 ^ 28)%N with 268435456%N in LC. change (2 ^ 32)%N with 4294967296%N in *. change (2 ^ 16)%N with 65536%N. change (2 ^ 64)%N with 18446744073709551616%N in *. unfold pos_of; rewrite ?app_length; repeat split; lia. }
    unfold read_self_described. rewrite (app_assoc o1) at 1. rewrite (app_assoc _ G) at 1. rewrite footer_read by exact FO. cbn [obind]. unfold f at 1 2. cbn [footer_of ft_major ft_minor fst snd version_of obind].
    assert (PG' : ft_gbo f = N.of_nat (length (o1 ++ M ++ C))) by reflexivity.
    replace (sub_bytes (o1 ++ (M ++ C) ++ G ++ footer_bytes f) (ft_gbo f) (N.of_nat (length (o1 ++ (M ++ C) ++ G ++ footer_bytes f)))) with (Some ([] ++ G ++ footer_bytes f)).
    2:{ symmetry. rewrite (app_assoc o1 (M ++ C)). rewrite <- (app_nil_r ((o1 ++ M ++ C) ++ G ++ footer_bytes f)) at 1. rewrite <- app_assoc. apply sub_mid; [exact PG'|]. rewrite PG', (app_length (o1 ++ M ++ C)). cbn [app]. lia. }
    cbn [obind]. replace (N.to_nat (ft_nglob f)) with (length g) by reflexivity. unfold G. rewrite gbo_read; [|reflexivity| |repeat constructor].
    2:{ constructor; [|constructor]. split; cbn [fst snd]; unfold pos_of; lia. }
    cbn [obind]. unfold g at 1.
    assert (SD : forall x, sub_bytes (o1 ++ x) (pos_of data) (pos_of data + N.of_nat (length desc)) = Some desc) by (intros x; unfold o1; rewrite <- app_assoc; now apply sub_mid).
    rewrite SD. cbn [obind].
    rewrite sub_mid; [|reflexivity|rewrite PG'; unfold f; cbn [footer_of ft_meta]; unfold pos_of; rewrite !app_length; lia]. cbn [obind].
    unfold M, C, f. rewrite columns_read; [|assumption| |assumption]; [cbn [obind]; reflexivity|]. fold M. unfold pos_of. rewrite app_length. lia.
  Qed.
End Codec.
