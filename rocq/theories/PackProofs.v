(* What is proved about PackModel: which pages of packed structs can be written, and that their rows read back. *)
From Coq Require Import List Arith NArith Bool Lia.
From Verif Require Import Lib PageModel FlatModel FlatProofs FlatPage PackModel.
Import ListNotations.
Local Open Scope nat_scope.

(* ---- the specification ---- *)
Definition s_wf (ts : list fty) (a : sarr) : Prop :=
  length (s_children a) = length ts /\ (forall k, k < length ts -> f_wf (ty_at ts k) (child_at k a) /\ a_len (child_at k a) = s_len a) /\
  match s_valid a with Some b => length b = s_len a | None => True end.
(* the rows of an array with the fields [js] *)
Definition s_rows (ts : list fty) (js : list nat) (a : sarr) : list lval :=
  mask_with (s_valid a) (map (fun i => VList (map (fun k => nth i (logical (ty_at ts k) (child_at k a)) VNull) js)) (seq 0 (s_len a))).
Definition struct_rows (arrays : list sarr) : nat := sumn (map s_len arrays).

(* ---- values of a type as bytes ---- *)
Fixpoint width (t : fty) : nat := match t with TFixed w => w | TBool => 0 | TFsl t' d => d * width t' end.
Fixpoint no_bool (t : fty) : Prop := match t with TFixed _ => True | TBool => False | TFsl t' _ => no_bool t' end.
Fixpoint value_of (t : fty) (b : list N) : lval :=
  match t with TFixed _ => VBytes b | TBool => VNull | TFsl t' d => VList (map (value_of t') (groups (width t') d b)) end.
Fixpoint flat_bytes (t : fty) (arrays : list farr) : list N := match t with TFixed _ => flat_data arrays | TBool => [] | TFsl t' _ => flat_bytes t' (children arrays) end.
Lemma width_byte : forall t, no_bool t -> byte_width t = Some (width t).
Proof. induction t as [w| |t IH d]; intros H; [reflexivity|destruct H|]. cbn in *. now rewrite (IH H). Qed.
Lemma byte_no_bool : forall t w, byte_width t = Some w -> no_bool t /\ w = width t.
Proof. induction t as [w0| |t IH d]; intros w H; cbn in *; [split; [exact Logic.I|congruence]|discriminate|]. destruct (byte_width t) as [v|]; [|discriminate]. injection H as <-. destruct (IH v eq_refl) as [A ->]. auto. Qed.
Lemma no_bits_bool : forall t arrays, no_bits t arrays -> no_bool t.
Proof. induction t as [w| |t IH d]; intros arrays [A B]; cbn; eauto. Qed.
Lemma no_bits_valid : forall t arrays, no_bits t arrays -> forallb (fun a => match a_valid a with None => true | Some _ => false end) arrays = true.
Proof. intros t arrays H. apply forallb_forall. intros a Ha. assert (F : Forall (fun a => a_valid a = None) arrays) by (destruct t; apply H). rewrite Forall_forall in F. now rewrite (F a Ha). Qed.
Lemma flat_bytes_length : forall t arrays, Forall (f_wf t) arrays -> no_bool t -> length (flat_bytes t arrays) = sumn (map a_len arrays) * width t.
Proof.
  induction t as [w| |t IH d]; intros arrays F NB; [|destruct NB|].
  - cbn [flat_bytes width]. unfold flat_data. induction F as [|a l A F IH]; [reflexivity|]. cbn [flat_map map sumn]. rewrite app_length, IH. destruct a as [vals v| |]; try contradiction. destruct A as [A _].
    cbn [a_len]. enough (E : length (concat vals) = length vals * w) by (rewrite E; lia). clear - A. induction A as [|x l A F IH]; [reflexivity|]. cbn. rewrite app_length, IH, A. lia.
  - destruct (child_wf t d arrays F) as [C1 C2]. cbn [flat_bytes width]. rewrite (IH _ C1 NB), C2. lia.
Qed.
Lemma skipn_map' {A B} : forall (f : A -> B) k l, skipn k (map f l) = map f (skipn k l).
Proof. induction k as [|k IH]; intros [|x l]; cbn; auto. Qed.
Lemma groups_groups : forall w d n (f : list N -> lval) (b : list N), groups d n (map f (groups w (n * d) b)) = map (fun x => map f (groups w d x)) (groups (d * w) n b).
Proof.
  intros w d n f b. unfold groups. rewrite !map_map. apply map_ext_in. intros i Hi. apply in_seq in Hi. rewrite map_map.
  assert (E : firstn d (skipn (i * d) (seq 0 (n * d))) = map (fun j => i * d + j) (seq 0 d)).
  { replace (n * d) with (i * d + (d + (n - i - 1) * d)) by nia. rewrite seq_app, skipn_app, seq_length. rewrite skipn_all2 by (rewrite seq_length; lia). rewrite Nat.sub_diag. cbn [app skipn]. rewrite seq_app, firstn_app, seq_length.
    rewrite Nat.sub_diag, firstn_O, app_nil_r. rewrite firstn_all2 by (rewrite seq_length; lia). generalize (i * d) as k. clear. intros k. cbn [plus]. replace (seq k d) with (seq (k + 0) d) by now rewrite Nat.add_0_r.
    generalize 0 as z. induction d as [|d IH]; intros z; [reflexivity|]. cbn [seq map]. f_equal. rewrite <- IH. f_equal. lia. }
  rewrite <- (map_map (fun j => firstn w (skipn (j * w) b)) f).
  transitivity (map f (map (fun j => firstn w (skipn (j * w) b)) (firstn d (skipn (i * d) (seq 0 (n * d)))))).
  - now rewrite !skipn_map', !firstn_map.
  - rewrite E, !map_map. apply map_ext_in. intros j Hj. apply in_seq in Hj. f_equal. rewrite skipn_firstn_comm, firstn_firstn, skipn_skipn'. f_equal; [nia|]. f_equal. nia.
Qed.
Lemma logical_values : forall t arrays, t_ok t -> Forall (f_wf t) arrays -> no_bits t arrays ->
  flat_map (logical t) arrays = map (value_of t) (groups (width t) (sumn (map a_len arrays)) (flat_bytes t arrays)).
Proof.
  induction t as [w| |t IH d]; intros arrays T F NB; [|destruct NB as [_ []]|].
  - destruct NB as [NB _]. cbn [width flat_bytes value_of]. unfold flat_data. induction F as [|a l A F IHF]; [reflexivity|]. apply Forall_cons_iff in NB as [N0 NB]. destruct a as [vals v| |]; try contradiction. destruct A as [A _]. cbn in N0. subst v.
    change (flat_map (logical (TFixed w)) (AFixed vals None :: l)) with (map VBytes vals ++ flat_map (logical (TFixed w)) l). rewrite (IHF NB). cbn [flat_map map sumn a_len]. rewrite groups_app, map_app.
    + f_equal. rewrite <- (map_id vals) at 3. rewrite <- flat_map_concat_map, groups_flat, map_id; [reflexivity|]. intros x Hx. rewrite Forall_forall in A. auto.
    + clear - A. induction A as [|x l A F IH]; [reflexivity|]. cbn. rewrite app_length, IH, A. lia.
  - destruct T as [T D]. destruct NB as [NV NB]. destruct (child_wf t d arrays F) as [C1 C2]. specialize (IH (children arrays) T C1 NB). cbn [width flat_bytes value_of].
    assert (E : flat_map (logical (TFsl t d)) arrays = map VList (groups d (sumn (map a_len arrays)) (flat_map (logical t) (children arrays)))).
    { clear - F NV. induction F as [|a l A F IH]; [reflexivity|]. apply Forall_cons_iff in NV as [N0 NV]. destruct a as [| |k c v]; try contradiction. destruct A as (A1 & A2 & A3). cbn in N0. subst v.
      change (flat_map (logical (TFsl t d)) (AFsl k c None :: l)) with (map VList (groups d k (logical t c)) ++ flat_map (logical (TFsl t d)) l). rewrite (IH NV). cbn [flat_map children map sumn a_len app]. fold (children l). rewrite groups_app, map_app by now rewrite (logical_length t c A1). reflexivity. }
    rewrite E, IH, C2, groups_groups, map_map. reflexivity.
Qed.
Lemma write_ok : forall t arrays n, t_ok t -> Forall (f_wf t) arrays -> no_bits t arrays -> n = sumn (map a_len arrays) -> 0 < n ->
  has_length (from_arrays t arrays n) = true /\ forall i, exists y e j, encode (choose t) (from_arrays t arrays n) i = Some (y, e, j) /\ into_flat y = Some (8 * width t, flat_bytes t arrays, n) /\
  forall bufs z, nth_error bufs i = Some z -> exists s, sched_of bufs e = Some s.
Proof.
  intros t. induction t as [w| |t IH d]; intros arrays n T F NB NE P; [|destruct NB as [_ []]|].
  - assert (FA : from_arrays (TFixed w) arrays n = BFixed (8 * w) (flat_data arrays) n).
    { destruct arrays as [|a0 arr]; [cbn in NE; lia|]. destruct n as [|n']; [lia|]. cbn [from_arrays Nat.eqb]. unfold extract_nulls. now rewrite (no_bits_valid _ _ NB). }
    rewrite FA. split; [reflexivity|]. intros i. do 3 eexists. split; [reflexivity|]. split; [reflexivity|]. intros bufs z Z. cbn in T. cbn [sched_of]. rewrite Z.
    replace (8 * w =? 1) with false by (symmetry; apply Nat.eqb_neq; lia). rewrite (Nat.mul_comm 8 w), Nat.mod_mul by lia. eexists. reflexivity.
  - destruct T as [T D]. destruct (child_wf t d arrays F) as [C1 C2]. pose proof NB as [_ NB'].
    assert (FA : from_arrays (TFsl t d) arrays n = BFsl (from_arrays t (children arrays) (n * d)) d).
    { destruct arrays as [|a0 arr]; [cbn in NE; lia|]. destruct n as [|n']; [lia|]. cbn [from_arrays Nat.eqb]. unfold extract_nulls. now rewrite (no_bits_valid _ _ NB). }
    destruct (IH (children arrays) (n * d) T C1 NB') as [H1 H2]; [congruence|nia|]. rewrite FA. split; [exact H1|]. intros i. destruct (H2 i) as (y & e & j & E1 & E2 & E3). cbn [choose encode]. rewrite E1. do 3 eexists. split; [reflexivity|].
    cbn [into_flat width flat_bytes]. rewrite E2. replace (d =? 0) with false by (symmetry; apply Nat.eqb_neq; lia). rewrite Nat.div_mul by lia. split; [do 3 f_equal; lia|]. intros bufs z Z. destruct (E3 bufs z Z) as (s & S). cbn [sched_of]. rewrite S. eexists. reflexivity.
Qed.
Lemma write_only : forall t arrays n i y e j x, encode (choose t) (from_arrays t arrays n) i = Some (y, e, j) -> into_flat y = Some x -> no_bool t -> n = sumn (map a_len arrays) -> 0 < n ->
  Forall (f_wf t) arrays -> t_ok t -> no_bits t arrays.
Proof.
  induction t as [w| |t IH d]; intros arrays n i y e j x E X NB NE P F T; [|destruct NB|].
  - destruct arrays as [|a0 arr]; [cbn in NE; lia|]. destruct n as [|n']; [lia|]. cbn [from_arrays Nat.eqb] in E. remember (a0 :: arr) as arrays. split; [|exact Logic.I]. unfold extract_nulls in E.
    destruct (forallb _ arrays) eqn:AN; [rewrite forallb_forall in AN; apply Forall_forall; intros a Ha; specialize (AN a Ha); now destruct (a_valid a)|].
    destruct (_ =? S n'); cbn in E; injection E as <- <- <-; discriminate X.
  - destruct T as [T D]. destruct (child_wf t d arrays F) as [C1 C2]. assert (NE0 : arrays <> []) by (intros ->; cbn in NE; lia).
    destruct n as [|n']; [lia|]. remember (S n') as n eqn:En. assert (FA : from_arrays (TFsl t d) arrays n = match extract_nulls arrays n with NAll => BAllNull n | NSome bits => BNullable (BFsl (from_arrays t (children arrays) (n * d)) d) (pack_bits bits) | NNone => BFsl (from_arrays t (children arrays) (n * d)) d end).
    { subst n. destruct arrays as [|a0 arr]; [congruence|]. cbn [from_arrays Nat.eqb]. destruct (extract_nulls _ _); reflexivity. }
    rewrite FA in E. unfold extract_nulls in E. destruct (forallb _ arrays) eqn:AN.
    + split; [rewrite forallb_forall in AN; apply Forall_forall; intros a Ha; specialize (AN a Ha); now destruct (a_valid a)|]. cbn [choose encode] in E.
      destruct (encode (choose t) (from_arrays t (children arrays) (n * d)) i) as [[[y' e'] j']|] eqn:E'; [|discriminate]. injection E as <- <- <-. cbn [into_flat] in X. destruct (into_flat y') as [x'|] eqn:X'; [|discriminate].
      eapply (IH (children arrays) (n * d)); eauto; [congruence|nia].
    + destruct (_ =? n); cbn [choose encode] in E.
      * injection E as <- <- <-. discriminate X.
      * destruct (encode (choose t) _ (S i)) as [[[y' e'] j']|]; [|discriminate]. injection E as <- <- <-. discriminate X.
Qed.
Lemma read_flat : forall t b n, t_ok t -> no_bool t -> length b = n * width t ->
  exists blk a, from_flat t (width t * 8) b n = Some blk /\ num_values blk = n /\ into_arrow t blk = Some a /\ logical t a = map (value_of t) (groups (width t) n b).
Proof.
  induction t as [w| |t IH d]; intros b n T NB L; [|destruct NB|].
  - cbn [from_flat width] in *. do 2 eexists. split; [reflexivity|]. split; [reflexivity|]. cbn [into_arrow]. rewrite L, Nat.leb_refl. split; [reflexivity|]. reflexivity.
  - destruct T as [T D]. cbn [width] in *. destruct (IH b (n * d) T NB) as (blk & a & A1 & A2 & A3 & A4); [nia|]. cbn [from_flat].
    replace (d =? 0) with false by (symmetry; apply Nat.eqb_neq; lia). replace (d * width t * 8 / d) with (width t * 8) by (rewrite <- (Nat.div_mul (width t * 8) d) by lia; f_equal; lia). rewrite A1. cbn [omap].
    do 2 eexists. split; [reflexivity|]. cbn [num_values into_arrow]. rewrite A2, A3, Nat.div_mul by lia. replace (d =? 0) with false by (symmetry; apply Nat.eqb_neq; lia). split; [reflexivity|]. split; [reflexivity|].
    cbn [logical mask_with value_of]. rewrite A4, groups_groups, map_map. reflexivity.
Qed.

(* ---- zipping and picking apart ---- *)
Definition off (fields : list (nat * list N)) : nat := sumn (map fst fields).
Lemma zip_row_length : forall fields n i, Forall (fun f => length (snd f) = n * fst f) fields -> i < n -> length (zip_row fields i) = off fields.
Proof.
  intros fields n i F Hi. unfold zip_row, off. induction F as [|f t A F IH]; [reflexivity|]. cbn [flat_map map sumn]. rewrite app_length, IH, slice_length; [lia|]. rewrite A. nia.
Qed.
Lemma nth_flat : forall (rows : list (list N)) total j o w, (forall x, In x rows -> length x = total) -> j < length rows -> o + w <= total ->
  slice (j * total + o) (j * total + o + w) (concat rows) = firstn w (skipn o (nth j rows [])).
Proof.
  intros rows total j o w H. revert j. induction rows as [|r rows IH]; intros j Hj B; [cbn in Hj; lia|]. cbn [concat]. assert (Lr : length r = total) by (apply H; now left). unfold slice in *. destruct j as [|j].
  - cbn [Nat.mul Nat.add nth]. replace (o + w - o) with w by lia. rewrite skipn_app, firstn_app, skipn_length. replace (w - (length r - o)) with 0 by lia. now rewrite firstn_O, app_nil_r.
  - cbn [nth]. rewrite <- (IH (fun x Hx => H x (or_intror Hx)) j) by (cbn in Hj; lia). replace (S j * total + o + w - (S j * total + o)) with w by lia. replace (j * total + o + w - (j * total + o)) with w by lia. f_equal.
    rewrite skipn_app, Lr. rewrite skipn_all2 by nia. cbn [app]. f_equal. nia.
Qed.
Lemma opt_all_map {A B} : forall (f : A -> option B) g l, (forall x, In x l -> f x = Some (g x)) -> opt_all (map f l) = Some (map g l).
Proof. induction l as [|x t IH]; intros H; [reflexivity|]. cbn. rewrite (H x) by now left. rewrite IH; [reflexivity|]. intros y Hy. apply H. now right. Qed.
Lemma opt_all_some {A} : forall (l : list (option A)) r, opt_all l = Some r -> l = map Some r.
Proof. induction l as [|o l IH]; intros r H; cbn in H; [now injection H as <-|]. destruct o as [x|]; [|discriminate]. destruct (opt_all l) as [y|]; [|discriminate]. injection H as <-. cbn. f_equal. now apply IH. Qed.

Definition chunk (f : nat * list N) (i : nat) : list N := slice (i * fst f) (i * fst f + fst f) (snd f).
Lemma pick_field : forall before f after n i, Forall (fun f => length (snd f) = n * fst f) (before ++ f :: after) -> i < n ->
  firstn (fst f) (skipn (off before) (zip_row (before ++ f :: after) i)) = chunk f i.
Proof.
  intros before f after n i F Hi. apply Forall_app in F as [F1 F2]. apply Forall_cons_iff in F2 as [F2 F3]. unfold zip_row at 1. rewrite flat_map_app. fold (zip_row before i). cbn [flat_map].
  pose proof (zip_row_length before n i F1 Hi) as L1. rewrite skipn_app, L1, Nat.sub_diag. rewrite skipn_all2 by lia. cbn [app skipn]. change (slice (i * fst f) (i * fst f + fst f) (snd f)) with (chunk f i).
  assert (L2 : length (chunk f i) = fst f) by (unfold chunk; rewrite slice_length; [lia|rewrite F2; nia]). rewrite firstn_app, L2, Nat.sub_diag, firstn_O, app_nil_r. apply firstn_all2. lia.
Qed.
Lemma nth_part : forall all skip m, skip + m <= length all -> firstn m (skipn skip all) = map (fun r => nth (skip + r) all 0) (seq 0 m).
Proof.
  intros all skip m H. rewrite (list_nth_map (firstn m (skipn skip all)) 0) at 1. rewrite firstn_length, skipn_length. replace (Nat.min m (length all - skip)) with m by lia.
  apply map_ext_in. intros r Hr. apply in_seq in Hr. rewrite nth_firstn' by lia. apply nth_skipn'.
Qed.
(* a field with its type and its bytes *)
Definition fld (p : fty * list N) : nat * list N := (width (fst p), snd p).
Lemma decode_ok : forall suf pre n all skip m, Forall (fun f => length (snd f) = n * fst f) (map fld (pre ++ suf)) -> Forall (fun p => t_ok (fst p) /\ no_bool (fst p)) suf -> Forall (fun i => i < n) all -> skip + m <= length all ->
  exists bs, decode_fields (combine (map fst suf) (map (fun p => width (fst p)) suf)) (off (map fld (pre ++ suf))) (flat_map (zip_row (map fld (pre ++ suf))) all) skip m (off (map fld pre)) = Some bs /\
  exists arrs, opt_all (map (fun p => into_arrow (fst p) (snd p)) (combine (map fst suf) bs)) = Some arrs /\
  map (fun p => logical (fst p) (snd p)) (combine (map fst suf) arrs) = map (fun p => map (value_of (fst p)) (map (chunk (fld p)) (firstn m (skipn skip all)))) suf.
Proof.
  induction suf as [|p suf IH]; intros pre n all skip m F T A B; [exists []; split; [reflexivity|]; exists []; split; reflexivity|].
  set (FS := map fld (pre ++ p :: suf)) in *. apply Forall_cons_iff in T as [[T0 NB] T]. cbn [map combine decode_fields].
  assert (E1 : opt_all (map (fun r => bytes_at (flat_map (zip_row FS) all) (skip * off FS + (off (map fld pre) + r * off FS)) (width (fst p))) (seq 0 m)) = Some (map (chunk (fld p)) (firstn m (skipn skip all)))).
  { rewrite nth_part, map_map by exact B. apply opt_all_map. intros r Hr. apply in_seq in Hr. assert (LR : forall x, In x (map (zip_row FS) all) -> length x = off FS).
    { intros x Hx. apply in_map_iff in Hx as (i & <- & Hi). rewrite Forall_forall in A. apply (zip_row_length FS n); auto. }
    assert (EFS : FS = map fld pre ++ fld p :: map fld suf) by (unfold FS; now rewrite map_app).
    assert (OB : off (map fld pre) + width (fst p) <= off FS). { rewrite EFS. unfold off. rewrite map_app. cbn [map]. rewrite sumn_app. cbn [sumn]. change (fst (fld p)) with (width (fst p)). lia. }
    unfold bytes_at. rewrite flat_map_concat_map. replace (skip * off FS + (off (map fld pre) + r * off FS)) with ((skip + r) * off FS + off (map fld pre)) by nia.
    assert (LT : length (concat (map (zip_row FS) all)) = length all * off FS). { rewrite <- flat_map_concat_map. rewrite (flat_length _ (off FS)); [reflexivity|]. intros i Hi. apply LR. now apply in_map. }
    rewrite LT. replace (_ <=? _) with true by (symmetry; apply Nat.leb_le; nia). f_equal. rewrite (nth_flat _ (off FS)); [|exact LR|rewrite map_length; lia|exact OB].
    rewrite (nth_indep _ [] (zip_row FS 0)) by (rewrite map_length; lia). rewrite map_nth. rewrite EFS. apply (pick_field (map fld pre) (fld p) (map fld suf) n); [now rewrite <- EFS|]. rewrite Forall_forall in A. apply A. apply nth_In. lia. }
  rewrite E1. set (S := firstn m (skipn skip all)) in *. assert (LS : length S = m) by (unfold S; rewrite firstn_length, skipn_length; lia).
  assert (LC : forall i, In i S -> length (chunk (fld p) i) = width (fst p)).
  { intros i Hi. assert (Hn : i < n). { rewrite Forall_forall in A. apply A. unfold S in Hi. rewrite <- (firstn_skipn skip all). apply in_or_app. right. rewrite <- (firstn_skipn m (skipn skip all)). apply in_or_app. now left. }
    unfold FS in F. rewrite map_app in F. apply Forall_app in F as [_ F]. cbn [map] in F. apply Forall_cons_iff in F as [F _]. unfold chunk, fld in *. cbn [fst snd] in *. rewrite slice_length; [lia|]. rewrite F. nia. }
  destruct (read_flat (fst p) (concat (map (chunk (fld p)) S)) m T0 NB) as (blk & a & R1 & _ & R3 & R4). { rewrite <- flat_map_concat_map. rewrite (flat_length _ _ S LC), LS. reflexivity. }
  rewrite R1. destruct (IH (pre ++ [p]) n all skip m) as (bs & D1 & arrs & D2 & D3); auto; [now rewrite <- app_assoc|].
  rewrite <- app_assoc in D1. cbn [app] in D1. fold FS in D1. replace (off (map fld (pre ++ [p]))) with (off (map fld pre) + width (fst p)) in D1.
  2:{ unfold off. rewrite !map_app, sumn_app. cbn. lia. }
  rewrite D1. exists (blk :: bs). split; [reflexivity|]. cbn [map combine opt_all fst snd]. rewrite R3, D2. exists (a :: arrs). split; [reflexivity|]. cbn [map combine fst snd]. rewrite D3. f_equal.
  rewrite R4. f_equal. rewrite <- flat_map_concat_map. rewrite <- LS. apply groups_flat. exact LC.
Qed.

(* ---- the page ---- *)
Definition child_col (k : nat) (arrays : list sarr) : list farr := map (child_at k) arrays.
Definition field_at (ts : list fty) (arrays : list sarr) (k : nat) : fty * list N := (ty_at ts k, flat_bytes (ty_at ts k) (child_col k arrays)).
Lemma child_col_ok : forall ts arrays k, Forall (s_wf ts) arrays -> k < length ts -> Forall (f_wf (ty_at ts k)) (child_col k arrays) /\ sumn (map a_len (child_col k arrays)) = struct_rows arrays.
Proof.
  intros ts arrays k F Hk. unfold child_col, struct_rows. induction F as [|a l (A1 & A2 & _) F [IH1 IH2]]; [split; [constructor|reflexivity]|]. destruct (A2 k Hk) as [B1 B2]. cbn [map sumn]. split; [now constructor|]. now rewrite B2, IH2.
Qed.
Lemma ts_map : forall ts, ts = map (ty_at ts) (seq 0 (length ts)).
Proof. intros ts. apply list_nth_map. Qed.
Lemma combine_map_same {A B C} : forall (f : A -> B) (g : A -> C) l, combine (map f l) (map g l) = map (fun x => (f x, g x)) l.
Proof. induction l as [|x l IH]; [reflexivity|]. cbn. now rewrite IH. Qed.
Definition plain_pages (ts : list fty) (arrays : list sarr) : Prop :=
  Forall (fun a => s_valid a = None) arrays /\ forall k, k < length ts -> no_bits (ty_at ts k) (child_col k arrays).
Lemma pack_all : forall ts arrays ks, Forall t_ok ts -> Forall (s_wf ts) arrays -> plain_pages ts arrays -> 0 < struct_rows arrays -> Forall (fun k => k < length ts) ks ->
  exists es, length es = length ks /\
  opt_all (map (fun k => pack_child (ty_at ts k) (from_arrays (ty_at ts k) (child_col k arrays) (struct_rows arrays))) ks) =
    Some (map (fun q : nat * enc => (width (ty_at ts (fst q)), flat_bytes (ty_at ts (fst q)) (child_col (fst q) arrays), struct_rows arrays, snd q)) (combine ks es)) /\
  Forall (fun e => forall z, exists s, sched_of [z] e = Some s) es.
Proof.
  intros ts arrays ks T W [V NB] P F. induction F as [|k ks Hk F IH]; [exists []; repeat split; constructor|]. destruct IH as (es & L & E & S).
  destruct (child_col_ok ts arrays k W Hk) as [C1 C2]. assert (Tk : t_ok (ty_at ts k)) by (rewrite Forall_forall in T; apply T; now apply nth_In).
  destruct (write_ok (ty_at ts k) (child_col k arrays) (struct_rows arrays) Tk C1 (NB k Hk) (eq_sym C2) P) as [_ X]. destruct (X 0) as (y & e & j & E1 & E2 & E3).
  exists (e :: es). cbn [length]. split; [now rewrite L|]. split; [|constructor; [intros z; now apply (E3 [z] z)|exact S]].
  cbn [map opt_all combine fst snd]. rewrite E. unfold pack_child. rewrite E1, E2. rewrite (Nat.mul_comm 8), Nat.mod_mul, Nat.div_mul by lia. reflexivity.
Qed.
Lemma write_packed_ok : forall ts arrays, ts <> [] -> Forall t_ok ts -> Forall (s_wf ts) arrays -> 0 < struct_rows arrays -> plain_pages ts arrays ->
  exists es, write_packed ts arrays = Some (flat_map (zip_row (map fld (map (field_at ts arrays) (seq 0 (length ts))))) (seq 0 (struct_rows arrays)), es) /\
  length es = length ts /\ Forall (fun e => forall z, exists s, sched_of [z] e = Some s) es.
Proof.
  intros ts arrays NE T W P PP. set (K := length ts). assert (Hks : Forall (fun k => k < length ts) (seq 0 K)) by (apply Forall_forall; intros k Hk; apply in_seq in Hk; unfold K in Hk; lia).
  destruct (pack_all ts arrays (seq 0 K) T W PP P Hks) as (es & L & E & S). rewrite seq_length in L. exists es. split; [|split; [exact L|exact S]].
  destruct PP as [V NB]. unfold write_packed, struct_block. fold (struct_rows arrays). destruct arrays as [|a0 arr] eqn:EA; [cbn in P; lia|]. rewrite <- EA in *.
  replace (struct_rows arrays =? 0) with false by (symmetry; apply Nat.eqb_neq; lia).
  replace (forallb (fun a => match s_valid a with None => true | Some _ => false end) arrays) with true.
  2:{ symmetry. apply forallb_forall. intros a Ha. rewrite Forall_forall in V. now rewrite (V a Ha). }
  fold K. match goal with |- context [forallb has_length ?l] => replace (forallb has_length l) with true end.
  2:{ symmetry. apply forallb_forall. intros b Hb. apply in_map_iff in Hb as (k & <- & Hk). rewrite Forall_forall in Hks. specialize (Hks k Hk). destruct (child_col_ok ts arrays k W Hks) as [C1 C2].
      apply write_ok; auto. { rewrite Forall_forall in T. apply T. now apply nth_In. } exact (NB k Hks). }
  cbn [obind]. rewrite (ts_map ts) at 1. fold K. rewrite combine_map_same, map_map. cbn [fst snd]. unfold child_col in E. rewrite E. cbn [obind].
  destruct (seq 0 K) as [|k0 ks] eqn:EK; [destruct ts; [congruence|discriminate EK]|]. destruct es as [|e0 es']; [cbn in L; unfold K in L; destruct ts; [congruence|discriminate L]|].
  cbn [combine map fst snd]. unfold zip_into_one. match goal with |- context [forallb ?g ?l] => replace (forallb g l) with true end.
  - cbn [omap]. f_equal. f_equal.
    + f_equal. f_equal. cbn [map fld field_at fst snd]. unfold fld, field_at. cbn [fst snd]. f_equal.
      rewrite !map_map. cbn [fst snd]. unfold child_col.
      assert (L' : length ks = length es'). { pose proof (seq_length K 0) as Q. rewrite EK in Q. cbn in Q, L. lia. }
      clear - L'. revert es' L'. induction ks as [|k ks IH]; intros [|e es] L; try discriminate; [reflexivity|]. cbn. f_equal. apply IH. now injection L.
    + f_equal. rewrite !map_map. cbn [snd]. assert (L' : length ks = length es'). { pose proof (seq_length K 0) as Q. rewrite EK in Q. cbn in Q, L. lia. }
      clear - L'. revert es' L'. induction ks as [|k ks IH]; intros [|e es] L; try discriminate; [reflexivity|]. cbn. f_equal. apply IH. now injection L.
  - symmetry. apply forallb_forall. intros f Hf. apply Nat.leb_le.
    assert (Q : exists k, k < length ts /\ f = (width (ty_at ts k), flat_bytes (ty_at ts k) (map (child_at k) arrays))).
    { rewrite map_map in Hf. cbn [fst snd] in Hf. destruct Hf as [<-|Hf].
      - exists k0. split; [|reflexivity]. now apply Forall_cons_iff in Hks as [Hks _].
      - apply in_map_iff in Hf as ([k e] & <- & Hq). exists k. cbn [fst snd]. split; [|reflexivity]. apply in_combine_l in Hq. rewrite Forall_forall in Hks. apply Hks. now right. }
    destruct Q as (k & Hk & ->). cbn [fst snd]. destruct (child_col_ok ts arrays k W Hk) as [C1 C2]. fold (child_col k arrays). rewrite (flat_bytes_length _ _ C1 (no_bits_bool _ _ (NB k Hk))), C2. lia.
Qed.
(* for types without booleans: exactly the pages without validity bitmaps can be written *)
Lemma write_plain : forall ts arrays p, Forall t_ok ts -> Forall no_bool ts -> Forall (s_wf ts) arrays -> write_packed ts arrays = Some p -> ts <> [] /\ 0 < struct_rows arrays /\ plain_pages ts arrays.
Proof.
  intros ts arrays p T NB W H. unfold write_packed in H. destruct (struct_block ts arrays) as [blocks|] eqn:SB; [|discriminate H]. cbn [obind] in H.
  destruct (opt_all (map (fun p => pack_child (fst p) (snd p)) (combine ts blocks))) as [fields|] eqn:OA; [|discriminate H]. cbn [obind] in H.
  assert (NE : ts <> []). { intros ->. cbn in OA. injection OA as <-. discriminate H. }
  unfold struct_block in SB. fold (struct_rows arrays) in SB. destruct arrays as [|a0 arr] eqn:EA; [discriminate SB|]. rewrite <- EA in *.
  destruct (struct_rows arrays =? 0) eqn:Z; [discriminate SB|]. apply Nat.eqb_neq in Z. split; [exact NE|]. split; [lia|].
  match type of SB with context [forallb ?g ?l] => destruct (forallb g l) eqn:V end; [|discriminate SB].
  match type of SB with context [forallb has_length ?l] => destruct (forallb has_length l) end; [|discriminate SB]. injection SB as <-.
  split.
  - apply Forall_forall. intros a Ha. rewrite forallb_forall in V. specialize (V a Ha). destruct (s_valid a); [discriminate V|reflexivity].
  - intros k Hk. destruct (child_col_ok ts arrays k W Hk) as [C1 C2]. rewrite (ts_map ts) in OA at 1. rewrite combine_map_same, map_map in OA. cbn [fst snd] in OA.
    apply opt_all_some in OA. assert (X : In (pack_child (ty_at ts k) (from_arrays (ty_at ts k) (map (child_at k) arrays) (struct_rows arrays))) (map Some fields)).
    { rewrite <- OA. apply in_map_iff. exists k. split; [reflexivity|]. apply in_seq. lia. }
    apply in_map_iff in X as (f & X & _). unfold pack_child in X. destruct (encode (choose (ty_at ts k)) (from_arrays (ty_at ts k) (map (child_at k) arrays) (struct_rows arrays)) 0) as [[[y e] j]|] eqn:E; [|discriminate X].
    destruct (into_flat y) as [x|] eqn:F; [|discriminate X].
    apply (write_only (ty_at ts k) (child_col k arrays) (struct_rows arrays) 0 y e j x); auto; [|lia|].
    + rewrite Forall_forall in NB. apply NB. now apply nth_In.
    + rewrite Forall_forall in T. apply T. now apply nth_In.
Qed.
Theorem packed_writes : forall ts arrays, Forall t_ok ts -> Forall no_bool ts -> Forall (s_wf ts) arrays ->
  (write_packed ts arrays <> None <-> ts <> [] /\ 0 < struct_rows arrays /\ plain_pages ts arrays).
Proof.
  intros ts arrays T NB W. split.
  - destruct (write_packed ts arrays) as [p|] eqn:E; [|congruence]. intros _. eapply write_plain; eauto.
  - intros (NE & P & PP). destruct (write_packed_ok ts arrays NE T W P PP) as (es & E & _). congruence.
Qed.

(* ---- the rows ---- *)
Lemma rows_zip : forall ts js arrays, Forall (s_wf ts) arrays -> Forall (fun a => s_valid a = None) arrays -> Forall (fun k => k < length ts) js ->
  flat_map (s_rows ts js) arrays = map (fun i => VList (map (fun k => nth i (flat_map (logical (ty_at ts k)) (child_col k arrays)) VNull) js)) (seq 0 (struct_rows arrays)).
Proof.
  intros ts js arrays W V J. induction W as [|a l A W IH]; [reflexivity|]. apply Forall_cons_iff in V as [V0 V]. rewrite Forall_forall in J. cbn [flat_map]. unfold struct_rows. cbn [map sumn]. rewrite seq_app, map_app. f_equal.
  - unfold s_rows. rewrite V0. cbn [mask_with]. apply map_ext_in. intros i Hi. apply in_seq in Hi. f_equal. apply map_ext_in. intros k Hk. unfold child_col. cbn [map flat_map].
    destruct A as (_ & A & _). destruct (A k (J k Hk)) as [A1 A2]. rewrite app_nth1; [reflexivity|]. rewrite (logical_length _ _ A1), A2. lia.
  - rewrite (IH V). fold (struct_rows l). cbn [plus]. replace (seq (s_len a) (struct_rows l)) with (map (fun i => s_len a + i) (seq 0 (struct_rows l))).
    + rewrite map_map. apply map_ext_in. intros i Hi. f_equal. apply map_ext_in. intros k Hk. unfold child_col. cbn [map flat_map].
      destruct A as (_ & A & _). destruct (A k (J k Hk)) as [A1 A2]. rewrite app_nth2; rewrite (logical_length _ _ A1), A2; [|lia]. f_equal. lia.
    + generalize (struct_rows l) as z. clear. intros z. replace (seq (s_len a) z) with (seq (s_len a + 0) z) by now rewrite Nat.add_0_r. generalize 0 as o. induction z as [|z IH]; intros o; [reflexivity|]. cbn [seq map]. f_equal. rewrite IH. f_equal. lia.
Qed.
Lemma widths_ok : forall ts, Forall no_bool ts -> opt_all (map byte_width ts) = Some (map width ts).
Proof. intros ts F. apply opt_all_map. intros t Ht. rewrite Forall_forall in F. apply width_byte. auto. Qed.
Theorem packed_exact : forall ts arrays rs skip n, ts <> [] -> Forall t_ok ts -> Forall (s_wf ts) arrays -> 0 < struct_rows arrays -> plain_pages ts arrays ->
  ranges_in (struct_rows arrays) rs -> skip + n <= rows_of rs ->
  read_packed ts (seq 0 (length ts)) arrays rs skip n = Some (firstn n (skipn skip (flat_map (fun r => slice (fst r) (snd r) (flat_map (s_rows ts (seq 0 (length ts))) arrays)) rs))).
Proof.
  intros ts arrays rs skip n NE T W P PP R B. destruct (write_packed_ok ts arrays NE T W P PP) as (es & E & L & S). pose proof PP as [V NB].
  set (K := length ts) in *. set (Ps := map (field_at ts arrays) (seq 0 K)) in *. set (FS := map fld Ps) in *.
  assert (HK : forall k, In k (seq 0 K) -> k < length ts) by (intros k Hk; apply in_seq in Hk; unfold K in Hk; lia).
  assert (LF : Forall (fun f => length (snd f) = struct_rows arrays * fst f) FS).
  { unfold FS, Ps. rewrite map_map. apply Forall_forall. intros f Hf. apply in_map_iff in Hf as (k & <- & Hk). specialize (HK k Hk). destruct (child_col_ok ts arrays k W HK) as [C1 C2].
    unfold fld, field_at. cbn [fst snd]. now rewrite (flat_bytes_length _ _ C1 (no_bits_bool _ _ (NB k HK))), C2. }
  assert (TB : Forall (fun p => t_ok (fst p) /\ no_bool (fst p)) Ps).
  { unfold Ps. apply Forall_forall. intros p Hp. apply in_map_iff in Hp as (k & <- & Hk). specialize (HK k Hk). unfold field_at. cbn [fst]. split; [rewrite Forall_forall in T; apply T; now apply nth_In|exact (no_bits_bool _ _ (NB k HK))]. }
  assert (TS : map fst Ps = ts). { unfold Ps, field_at. rewrite map_map. cbn [fst]. symmetry. apply ts_map. }
  assert (WS : map (fun p => width (fst p)) Ps = map width ts) by (rewrite <- TS, map_map; reflexivity).
  assert (OF : off FS = sumn (map width ts)). { unfold off, FS. rewrite map_map. cbn [fld fst]. unfold fld. cbn [fst]. now rewrite WS. }
  unfold read_packed. fold K. rewrite E. cbn [obind fst snd]. rewrite seq_length, <- ts_map.
  assert (SC : exists ss, opt_all (map (fun i => obind (nth_error es i) (sched_of [flat_map (zip_row FS) (seq 0 (struct_rows arrays))])) (seq 0 K)) = Some ss).
  { assert (Q : forall ks, Forall (fun k => k < length es) ks -> exists ss, opt_all (map (fun i => obind (nth_error es i) (sched_of [flat_map (zip_row FS) (seq 0 (struct_rows arrays))])) ks) = Some ss).
    { induction 1 as [|k ks Hk F [ss IH]]; [now exists []|]. cbn [map opt_all]. rewrite IH. destruct (nth_error es k) as [e|] eqn:X; [|apply nth_error_None in X; lia]. cbn [obind].
      rewrite Forall_forall in S. destruct (S e (nth_error_In _ _ X) (flat_map (zip_row FS) (seq 0 (struct_rows arrays)))) as [s ->]. now exists (s :: ss). }
    apply Q. apply Forall_forall. intros k Hk. specialize (HK k Hk). fold K in HK. lia. }
  destruct SC as [ss ->]. cbn [obind]. rewrite widths_ok. 2:{ rewrite <- TS. apply Forall_forall. intros t Ht. apply in_map_iff in Ht as (p & <- & Hp). rewrite Forall_forall in TB. now apply TB. }
  cbn [obind]. rewrite <- OF.
  set (all := flat_map (fun r => slice (fst r) (snd r) (seq 0 (struct_rows arrays))) rs).
  assert (R' : ranges_in (length (seq 0 (struct_rows arrays))) rs) by now rewrite seq_length.
  assert (LA : length all = rows_of rs) by (apply all_length; exact R').
  assert (IA : Forall (fun i => i < struct_rows arrays) all).
  { apply Forall_forall. intros i Hi. apply in_flat_map in Hi as (r & _ & Hi). apply slice_In in Hi. apply in_seq in Hi. lia. }
  assert (DA : flat_map (fun r => slice (fst r * off FS) (snd r * off FS) (flat_map (zip_row FS) (seq 0 (struct_rows arrays)))) rs = flat_map (zip_row FS) all).
  { unfold all. rewrite <- (flat_all (zip_row FS) (off FS)).
    - unfold scale. rewrite !flat_map_concat_map, map_map. reflexivity.
    - intros i Hi. apply in_seq in Hi. apply (zip_row_length FS (struct_rows arrays)); [exact LF|lia]. }
  rewrite DA. destruct (decode_ok Ps [] (struct_rows arrays) all skip n) as (bs & D1 & arrs & D2 & D3); auto; [lia|].
  cbn [app map] in D1. fold FS in D1. rewrite TS, WS in D1. change (off []) with 0 in D1. rewrite D1. cbn [obind]. unfold packed_rows. rewrite TS in D2, D3. rewrite D2. cbn [omap]. rewrite D3. f_equal.
  rewrite (rows_zip ts (seq 0 K) arrays W V) by (apply Forall_forall; exact HK). rewrite all_map. fold all. rewrite skipn_map', firstn_map.
  assert (LS : length (firstn n (skipn skip all)) = n) by (rewrite firstn_length, skipn_length; lia).
  assert (IS : Forall (fun i => i < struct_rows arrays) (firstn n (skipn skip all))).
  { apply Forall_forall. intros i Hi. rewrite Forall_forall in IA. apply IA. rewrite <- (firstn_skipn skip all). apply in_or_app. right. rewrite <- (firstn_skipn n (skipn skip all)). apply in_or_app. now left. }
  set (Sl := firstn n (skipn skip all)) in *. unfold zip_columns. rewrite <- LS. match goal with |- _ = map ?f Sl => replace (map f Sl) with (map f (map (fun i => nth i Sl 0) (seq 0 (length Sl)))) by now rewrite <- list_nth_map end. rewrite (map_map (fun i => nth i Sl 0)). apply map_ext_in. intros i Hi. apply in_seq in Hi. f_equal. unfold Ps. rewrite !map_map. apply map_ext_in. intros k Hk. specialize (HK k Hk).
  destruct (child_col_ok ts arrays k W HK) as [C1 C2]. assert (Tk : t_ok (ty_at ts k)) by (rewrite Forall_forall in T; apply T; now apply nth_In).
  rewrite (logical_values _ _ Tk C1 (NB k HK)), C2. unfold field_at at 1. cbn [fst]. rewrite Forall_forall in IS. assert (Hn : nth i Sl 0 < struct_rows arrays) by (apply IS, nth_In; lia).
  rewrite map_map. rewrite (nth_indep _ VNull ((fun x => value_of (ty_at ts k) (chunk (fld (field_at ts arrays k)) x)) 0)) by (rewrite map_length; lia). rewrite (map_nth (fun x => value_of (ty_at ts k) (chunk (fld (field_at ts arrays k)) x))).
  unfold groups. rewrite map_map. rewrite (nth_indep _ VNull ((fun x => value_of (ty_at ts k) (firstn (width (ty_at ts k)) (skipn (x * width (ty_at ts k)) (flat_bytes (ty_at ts k) (child_col k arrays))))) 0)) by (rewrite map_length, seq_length; lia).
  rewrite (map_nth (fun x => value_of (ty_at ts k) (firstn (width (ty_at ts k)) (skipn (x * width (ty_at ts k)) (flat_bytes (ty_at ts k) (child_col k arrays)))))), seq_nth by exact Hn. cbn [plus]. f_equal. unfold chunk, slice, fld, field_at. cbn [fst snd]. f_equal. lia.
Qed.
(* whatever is read back is what was written *)
Theorem packed_safe : forall ts arrays rs skip n got, Forall t_ok ts -> Forall (s_wf ts) arrays -> ranges_in (struct_rows arrays) rs -> skip + n <= rows_of rs ->
  read_packed ts (seq 0 (length ts)) arrays rs skip n = Some got ->
  got = firstn n (skipn skip (flat_map (fun r => slice (fst r) (snd r) (flat_map (s_rows ts (seq 0 (length ts))) arrays)) rs)).
Proof.
  intros ts arrays rs skip n got T W R B H. pose proof H as H0. unfold read_packed in H. destruct (write_packed ts arrays) as [p|] eqn:E; [|discriminate H]. cbn [obind] in H.
  match type of H with obind ?x _ = _ => destruct x; [|discriminate H] end. cbn [obind] in H. rewrite <- ts_map in H. destruct (opt_all (map byte_width ts)) as [ws|] eqn:BW; [|discriminate H].
  assert (NB : Forall no_bool ts).
  { apply opt_all_some in BW. apply Forall_forall. intros t Ht. assert (X : In (byte_width t) (map Some ws)) by (rewrite <- BW; now apply in_map). apply in_map_iff in X as (w & X & _). eapply byte_no_bool; eauto. }
  destruct (write_plain ts arrays p T NB W E) as (NE & P & PP). rewrite packed_exact in H0 by auto. congruence.
Qed.

(* ---- where it is false ---- *)
(* some of the fields: the row width is that of the fields read, not of those written, so other bytes come back *)
Theorem packed_projection_refuted : exists ts arrays js got, Forall t_ok ts /\ Forall (s_wf ts) arrays /\ plain_pages ts arrays /\ Forall (fun k => k < length ts) js /\ NoDup js /\
  read_packed ts js arrays [(0, 2)] 0 2 = Some got /\
  got = [VList [VBytes [1; 3]%N]; VList [VBytes [4; 2]%N]] /\ flat_map (s_rows ts js) arrays = [VList [VBytes [3; 4]%N]; VList [VBytes [5; 6]%N]].
Proof.
  exists [TFixed 1; TFixed 2], [{| s_len := 2; s_children := [AFixed [[1]; [2]]%N None; AFixed [[3; 4]; [5; 6]]%N None]; s_valid := None |}], [1], [VList [VBytes [1; 3]%N]; VList [VBytes [4; 2]%N]].
  split; [repeat constructor|]. split; [|split; [|split; [repeat constructor|split; [repeat constructor; cbn; tauto|repeat split; vm_compute; reflexivity]]]].
  - constructor; [|constructor]. split; [reflexivity|]. split; [|exact Logic.I]. intros k Hk. destruct k as [|[|k]]; [| |cbn in Hk; lia]; cbn; repeat split; repeat constructor.
  - split; [repeat constructor|]. intros k Hk. destruct k as [|[|k]]; [| |cbn in Hk; lia]; cbn; repeat split; repeat constructor.
Qed.
(* a null bitmap of the struct, though no row is null: the writer panics *)
Theorem packed_validity_refuted : exists ts arrays, Forall t_ok ts /\ Forall no_bool ts /\ Forall (s_wf ts) arrays /\ 0 < struct_rows arrays /\
  flat_map (s_rows ts [0]) arrays = [VList [VBytes [1]%N]; VList [VBytes [2]%N]] /\ write_packed ts arrays = None.
Proof.
  exists [TFixed 1], [{| s_len := 2; s_children := [AFixed [[1]; [2]]%N None]; s_valid := Some [true; true] |}].
  split; [repeat constructor|]. split; [repeat constructor|]. split; [|split; [vm_compute; lia|split; vm_compute; reflexivity]].
  constructor; [|constructor]. split; [reflexivity|]. split; [|reflexivity]. intros k Hk. destruct k as [|k]; [|cbn in Hk; lia]. cbn. repeat split; repeat constructor.
Qed.
(* a null in a field *)
Theorem packed_child_null_refuted : exists ts arrays, Forall t_ok ts /\ Forall no_bool ts /\ Forall (s_wf ts) arrays /\ 0 < struct_rows arrays /\ Forall (fun a => s_valid a = None) arrays /\
  flat_map (s_rows ts [0]) arrays = [VList [VBytes [1]%N]; VList [VNull]] /\ write_packed ts arrays = None.
Proof.
  exists [TFixed 1], [{| s_len := 2; s_children := [AFixed [[1]; [2]]%N (Some [true; false])]; s_valid := None |}].
  split; [repeat constructor|]. split; [repeat constructor|]. split; [|split; [vm_compute; lia|split; [repeat constructor|split; vm_compute; reflexivity]]].
  constructor; [|constructor]. split; [reflexivity|]. split; [|exact Logic.I]. intros k Hk. destruct k as [|k]; [|cbn in Hk; lia]. cbn. repeat split; repeat constructor.
Qed.
(* a boolean field *)
Theorem packed_bool_refuted : exists ts arrays, Forall t_ok ts /\ Forall (s_wf ts) arrays /\ 0 < struct_rows arrays /\ Forall (fun a => s_valid a = None) arrays /\
  flat_map (s_rows ts [0]) arrays = [VList [VBool true]] /\ write_packed ts arrays = None.
Proof.
  exists [TBool], [{| s_len := 1; s_children := [ABool [true] None]; s_valid := None |}].
  split; [repeat constructor|]. split; [|split; [vm_compute; lia|split; [repeat constructor|split; vm_compute; reflexivity]]].
  constructor; [|constructor]. split; [reflexivity|]. split; [|exact Logic.I]. intros k Hk. destruct k as [|k]; [|cbn in Hk; lia]. cbn. repeat split; repeat constructor.
Qed.
(* lists of eight booleans are written and can never be read *)
Theorem packed_bool_lists_refuted : exists ts arrays p, Forall t_ok ts /\ Forall (s_wf ts) arrays /\ 0 < struct_rows arrays /\ write_packed ts arrays = Some p /\
  forall rs skip n, read_packed ts (seq 0 (length ts)) arrays rs skip n = None.
Proof.
  exists [TFsl TBool 8], [{| s_len := 1; s_children := [AFsl 1 (ABool (repeat true 8) None) None]; s_valid := None |}]. eexists.
  split; [repeat constructor|]. split.
  { constructor; [|constructor]. split; [reflexivity|]. split; [|exact Logic.I]. intros k Hk. destruct k as [|k]; [|cbn in Hk; lia]. cbn. repeat split; repeat constructor. }
  split; [vm_compute; lia|]. split; [vm_compute; reflexivity|]. intros rs skip n. unfold read_packed. match goal with |- obind ?x _ = _ => destruct x; [|reflexivity] end. cbn [obind].
  match goal with |- obind ?x _ = _ => destruct x; [|reflexivity] end. reflexivity.
Qed.
