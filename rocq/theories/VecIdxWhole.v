(* Whole indices: built, merged with new rows, and remapped. *)
From Coq Require Import List Arith Bool Lia Permutation.
From Verif Require Import Lib PageModel VecIdxModel VecIdxProofs.
Import ListNotations.
Local Open Scope nat_scope.

Section Whole.
  Context {V : Type}.
  Variables (prep : V -> V) (nearest : V -> option nat) (resid : nat -> V -> V) (quant : V -> list nat).
  Variables (nparts : nat) (pq : bool) (m : nat).
  Variable sort : list (@prow V) -> list (@prow V).
  Variable buffer_size : nat.
  Variable lookup : nat -> option V.
  Hypothesis M : 0 < m.
  Hypothesis W : forall v, length (quant v) = m.
  Hypothesis SP : forall l, Permutation (sort l) l.
  Hypothesis B : 0 < buffer_size.
  Hypothesis NP : 0 < nparts.
  Hypothesis NR : forall v p, nearest v = Some p -> p < nparts.

  (* the partition of a vector: the nearest centroid, or the first partition *)
  Definition home (v : V) : nat := match nearest (prep v) with Some p => p | None => 0 end.
  (* the rows that belong to a partition, with their codes *)
  Definition want (rows : list (@row V)) (p : nat) : list (nat * list nat) := map (fun r => (fst r, quant (resid p (prep (snd r))))) (filter (fun r => home (snd r) =? p) rows).
  Lemma home_range : forall v, home v < nparts.
  Proof. intros v. unfold home. destruct (nearest (prep v)) eqn:E; [now apply NR in E|exact NP]. Qed.
  Lemma transform_eq : forall b, transform prep nearest resid nparts b = map (fun r => (fst r, resid (home (snd r)) (prep (snd r)), nearest (prep (snd r)))) b.
  Proof.
    induction b as [|r b IH]; [reflexivity|]. unfold transform in *. cbn [map filter]. unfold part_of at 2. cbn [snd fst]. replace (value (nearest (prep (snd r))) <? nparts) with true by (symmetry; apply Nat.ltb_lt; apply home_range). cbn [map fst snd]. f_equal. exact IH.
  Qed.
  Lemma transform_range : forall b, in_range nparts (transform prep nearest resid nparts b).
  Proof. intros b. rewrite transform_eq. apply Forall_map, Forall_forall. intros r _. apply home_range. Qed.
  Lemma transform_here : forall l p, map fst (filter (here p) (concat (map (transform prep nearest resid nparts) l))) = map (fun r => (fst r, resid p (prep (snd r)))) (filter (fun r => home (snd r) =? p) (concat l)).
  Proof.
    induction l as [|b l IH]; intros p; [reflexivity|]. cbn [map concat]. rewrite !filter_app, !map_app, IH. f_equal. rewrite transform_eq. induction b as [|r b IHb]; [reflexivity|]. cbn [map filter]. unfold here at 1, part_of. cbn [snd]. change (value (nearest (prep (snd r)))) with (home (snd r)). destruct (home (snd r) =? p) eqn:E; [|exact IHb]. apply Nat.eqb_eq in E. cbn [map fst]. rewrite IHb, E. reflexivity.
  Qed.
  (* the data can be shuffled: there is one partition, or nothing, or a first batch with rows *)
  Definition shuffles (data : list (list (@row V))) : Prop := nparts = 1 \/ data = [] \/ hd [] data <> [].
  Lemma shuffle_data_ok : forall data, shuffles data -> exists r, shuffle_data prep nearest resid nparts sort buffer_size data = Some r /\ (data <> [] -> single r = (nparts =? 1)) /\ (data = [] -> single r = false) /\
    forall p, p < nparts -> Permutation (got r p) (map (fun r => (fst r, resid p (prep (snd r)))) (filter (fun r => home (snd r) =? p) (concat data))).
  Proof.
    intros data H. unfold shuffle_data. destruct data as [|b data]; [eexists; split; [reflexivity|]; split; [congruence|]; split; [reflexivity|]; intros p _; reflexivity|].
    destruct (shuffle_ok sort nparts buffer_size SP (map (transform prep nearest resid nparts) (b :: data)) B NP) as (r & E & S & K).
    - apply Forall_map, Forall_forall. intros x _. apply transform_range.
    - destruct H as [H|[H|H]]; [now left|discriminate H|]. right. cbn [hd map] in *. rewrite transform_eq. destruct b; [congruence|discriminate].
    - exists r. split; [exact E|]. split; [intros _; exact S|]. split; [discriminate|]. intros p P. rewrite <- transform_here. now apply K.
  Qed.
  Lemma build_all_ok : forall existing r old, (forall p, p < nparts -> take_existing lookup existing p = Some (old p)) -> (exists p, p < nparts /\ old p ++ got r p <> []) ->
    exists x, build_all quant nparts pq m lookup existing r = Some x /\ forall p, p < nparts -> entries pq m (load_partition x p) = map (fun r => (fst r, quant (snd r))) (old p ++ got r p) /\ sound (load_partition x p).
  Proof.
    intros existing r old T (q & Q & NE). unfold build_all. set (part := fun p => build_storage quant pq m (old p ++ got r p) (match old p with [] => single r | _ => false end)).
    rewrite (collect_all _ part) by (intros p I; apply in_seq in I; unfold build_partition; rewrite T by lia; reflexivity). cbn [obind].
    assert (S : Forall sound (map part (seq 0 nparts))). { apply Forall_map, Forall_forall. intros p _. unfold sound, part. rewrite (proj2 (entries_built _ quant pq m _ _ M W)). cbn [build_storage s_ids]. now rewrite map_length. }
    assert (NTH : forall p, p < nparts -> nth p (map part (seq 0 nparts)) {| s_ids := []; s_codes := []; s_extra := false |} = part p). { intros p P. rewrite (nth_indep _ _ (part 0)) by (rewrite map_length, seq_length; exact P). rewrite map_nth, seq_nth by exact P. reflexivity. }
    destruct (merge_some (map part (seq 0 nparts))) as (x & E). { exists (part q). split; [apply in_map, in_seq; lia|]. unfold part. cbn [build_storage s_ids]. destruct (old q ++ got r q); [congruence|discriminate]. }
    exists x. split; [exact E|]. intros p P. destruct (merge_load _ x S E p) as [L1 L2]; [now rewrite map_length, seq_length|]. rewrite (NTH p P) in L1, L2. split.
    - rewrite (entries_same pq m _ (part p) L1 L2). apply entries_built; [exact M|exact W].
    - unfold sound. rewrite L1, L2. rewrite Forall_forall in S. apply (S (part p)). apply in_map, in_seq. lia.
  Qed.
  Lemma want_nonempty : forall rows : list (@row V), rows <> [] -> exists p, p < nparts /\ filter (fun r => home (snd r) =? p) rows <> [].
  Proof. intros [|r rows] N; [congruence|]. exists (home (snd r)). split; [apply home_range|]. cbn [filter]. rewrite Nat.eqb_refl. discriminate. Qed.
  Lemma filter_parts : forall {X} (f : X -> nat) l n, (forall x, In x l -> f x < n) -> Permutation (flat_map (fun p => filter (fun x => f x =? p) l) (seq 0 n)) l.
  Proof.
    intros X f l n. induction l as [|x l IH]; intros H; [cbn; induction (seq 0 n); [constructor|exact IHl]|]. specialize (IH ltac:(intros; apply H; now right)). pose proof (H x ltac:(now left)) as R. clear H.
    assert (G : forall k a, a <= f x < a + k -> Permutation (flat_map (fun p => filter (fun x => f x =? p) (x :: l)) (seq a k)) (x :: flat_map (fun p => filter (fun x => f x =? p) l) (seq a k))).
    { assert (G0 : forall k a, f x < a \/ a + k <= f x -> flat_map (fun p => filter (fun x => f x =? p) (x :: l)) (seq a k) = flat_map (fun p => filter (fun x => f x =? p) l) (seq a k)).
      { induction k as [|k IHk]; intros a A; [reflexivity|]. cbn [seq flat_map]. rewrite IHk by lia. f_equal. cbn [filter]. destruct (f x =? a) eqn:E; [apply Nat.eqb_eq in E; lia|reflexivity]. }
      induction k as [|k IHk]; intros a A; [lia|]. cbn [seq flat_map]. destruct (Nat.eq_dec (f x) a) as [E|E].
      - rewrite G0 by lia. cbn [filter]. rewrite (proj2 (Nat.eqb_eq (f x) a) E). reflexivity.
      - rewrite IHk by lia. cbn [filter]. rewrite (proj2 (Nat.eqb_neq (f x) a) E). symmetry. apply Permutation_middle. }
    rewrite (G n 0) by lia. now constructor.
  Qed.
  Definition held (x : vindex) (p : nat) : list (nat * list nat) := entries pq m (load_partition x p).
  Theorem build_exact_s : forall data, concat data <> [] -> shuffles data -> exists x, build prep nearest resid quant nparts pq m sort buffer_size lookup data = Some x /\
    (forall p, p < nparts -> Permutation (held x p) (want (concat data) p) /\ sound (load_partition x p)) /\
    Permutation (flat_map (fun p => map fst (held x p)) (seq 0 nparts)) (map fst (concat data)).
  Proof.
    intros data N S. unfold build. destruct (shuffle_data_ok data S) as (r & -> & _ & _ & K). cbn [obind]. destruct (want_nonempty _ N) as (q & Q & NE).
    destruct (build_all_ok [] r (fun _ => [])) as (x & E & L); [reflexivity| |].
    { exists q. split; [exact Q|]. cbn [app]. specialize (K q Q). intros Z. rewrite Z in K. apply Permutation_nil in K. apply map_eq_nil in K. congruence. }
    exists x. split; [exact E|]. assert (H : forall p, p < nparts -> Permutation (held x p) (want (concat data) p) /\ sound (load_partition x p)).
    { intros p P. destruct (L p P) as [L1 L2]. split; [|exact L2]. unfold held. rewrite L1. cbn [app]. unfold want. rewrite (Permutation_map _ (K p P)), map_map. reflexivity. }
    split; [exact H|]. rewrite <- (Permutation_map fst (filter_parts (fun r => home (snd r)) (concat data) nparts (fun r _ => home_range (snd r)))).
    assert (G : forall ps, (forall p, In p ps -> p < nparts) -> Permutation (flat_map (fun p => map fst (held x p)) ps) (map fst (flat_map (fun p => filter (fun r => home (snd r) =? p) (concat data)) ps))).
    { induction ps as [|p ps IH]; intros R; [constructor|]. cbn [flat_map]. rewrite map_app. apply Permutation_app; [|apply IH; intros; apply R; now right]. rewrite (Permutation_map fst (proj1 (H p (R p ltac:(now left))))). unfold want. rewrite map_map. reflexivity. }
    apply G. intros p I. apply in_seq in I. lia.
  Qed.
  Lemma take_ok : forall vec ids, (forall i, In i ids -> lookup i = Some (vec i)) -> take_vectors lookup ids = Some (map (fun i => (i, vec i)) ids).
  Proof. intros vec. induction ids as [|i ids IH]; intros H; [reflexivity|]. cbn [take_vectors map]. rewrite (H i) by (now left). cbn [obind]. rewrite IH by (intros; apply H; now right). reflexivity. Qed.
  Definition listed (existing : list vindex) (p : nat) : list nat := flat_map (fun e => s_ids (load_partition e p)) existing.
  Lemma take_existing_ok : forall vec existing p, (forall i, In i (listed existing p) -> lookup i = Some (vec i)) -> take_existing lookup existing p = Some (map (fun i => (i, vec i)) (listed existing p)).
  Proof.
    intros vec. induction existing as [|e l IH]; intros p H; [reflexivity|]. cbn [take_existing]. unfold listed in *. cbn [flat_map] in H. rewrite (take_ok vec) by (intros; apply H; apply in_or_app; now left). cbn [obind]. rewrite IH by (intros; apply H; apply in_or_app; now right). cbn [omap flat_map]. now rewrite map_app.
  Qed.
  (* vectors are stored as they are *)
  Theorem optimize_plain_s : forall vec dataset existing data, (forall v, prep v = v) -> (forall p v, resid p v = v) -> (forall p i, p < nparts -> In i (listed existing p) -> lookup i = Some (vec i)) -> shuffles data ->
    concat data <> [] \/ (exists p, p < nparts /\ listed existing p <> []) ->
    exists x, optimize prep nearest resid quant nparts pq m sort buffer_size lookup dataset existing (Some data) = Some x /\
    forall p, p < nparts -> Permutation (held x p) (map (fun i => (i, quant (vec i))) (listed existing p) ++ want (concat data) p) /\ sound (load_partition x p).
  Proof.
    intros vec dataset existing data ID1 ID2 LV S N. unfold optimize. destruct (shuffle_data_ok data S) as (r & -> & _ & _ & K). cbn [obind].
    destruct (build_all_ok existing r (fun p => map (fun i => (i, vec i)) (listed existing p))) as (x & E & L).
    - intros p P. apply take_existing_ok. intros i I. now apply (LV p i P).
    - destruct N as [N|(q & Q & N)].
      + destruct (want_nonempty _ N) as (q & Q & NE). exists q. split; [exact Q|]. intros Z. apply app_eq_nil in Z as [_ Z]. specialize (K q Q). rewrite Z in K. apply Permutation_nil in K. apply map_eq_nil in K. congruence.
      + exists q. split; [exact Q|]. destruct (listed existing q); [congruence|discriminate].
    - exists x. split; [exact E|]. intros p P. destruct (L p P) as [L1 L2]. split; [|exact L2]. unfold held. rewrite L1, map_app, map_map. apply Permutation_app; [reflexivity|]. unfold want. rewrite (Permutation_map _ (K p P)), map_map. reflexivity.
  Qed.

End Whole.

(* ---- remap ---- *)
Section Moves.
  Variables (nparts : nat) (pq : bool) (m : nat).
  Variable mapping : nat -> option (option nat).
  (* where a row goes *)
  Definition goes (e : nat * list nat) : list (nat * list nat) := match mapping (fst e) with Some (Some j) => [(j, snd e)] | Some None => [] | None => [e] end.
  Lemma remap_rows_ok : forall ids codes, length codes = length ids -> combine (fst (remap_rows mapping ids codes)) (snd (remap_rows mapping ids codes)) = flat_map goes (combine ids codes) /\ length (snd (remap_rows mapping ids codes)) = length (fst (remap_rows mapping ids codes)).
  Proof.
    induction ids as [|i ids IH]; intros [|c codes] L; try discriminate L; [split; reflexivity|]. cbn [length] in L. cbn [remap_rows combine flat_map]. destruct (IH codes ltac:(lia)) as [I1 I2]. destruct (remap_rows mapping ids codes) as [a b]. cbn [fst snd] in *. unfold goes at 1, moved. cbn [fst snd]. destruct (mapping i) as [[j|]|]; cbn [fst snd combine app length]; rewrite ?I1; split; try reflexivity; lia.
  Qed.
  Lemma entries_flat : forall s, sound s -> entries false m s = combine (s_ids s) (s_codes s).
  Proof.
    intros [ids codes ex] S. unfold sound in S. cbn [s_ids s_codes] in S. unfold entries. cbn [s_ids s_codes]. revert codes S. induction ids as [|i ids IH]; intros [|c codes] L; try discriminate L; [reflexivity|]. cbn [length seq map nth combine]. f_equal. rewrite <- seq_shift, map_map. cbn [nth]. apply IH. cbn in L. lia.
  Qed.
  Lemma remap_load : forall x, (forall p, p < nparts -> sound (load_partition x p)) -> x_extra x = false -> (exists p i, p < nparts /\ In i (s_ids (load_partition x p)) /\ mapping i <> Some None) ->
    exists y, remap nparts mapping x = Some y /\ forall p, p < nparts -> sound (load_partition y p) /\ s_ids (load_partition y p) = fst (remap_rows mapping (s_ids (load_partition x p)) (s_codes (load_partition x p))) /\ s_codes (load_partition y p) = snd (remap_rows mapping (s_ids (load_partition x p)) (s_codes (load_partition x p))).
  Proof.
    intros x SO EX (q & i & Q & I & NM). unfold remap. set (part := fun p => {| s_ids := fst (remap_rows mapping (s_ids (load_partition x p)) (s_codes (load_partition x p))); s_codes := snd (remap_rows mapping (s_ids (load_partition x p)) (s_codes (load_partition x p))); s_extra := false |}).
    rewrite (collect_all _ part) by (intros p _; unfold remap_storage, part; cbn [load_partition s_extra]; rewrite EX; now destruct (remap_rows mapping _ _)). cbn [obind].
    assert (S : Forall sound (map part (seq 0 nparts))). { apply Forall_map, Forall_forall. intros p P. apply in_seq in P. unfold sound, part. cbn [s_ids s_codes]. apply remap_rows_ok. apply SO. lia. }
    assert (NTH : forall p, p < nparts -> nth p (map part (seq 0 nparts)) {| s_ids := []; s_codes := []; s_extra := false |} = part p). { intros p P. rewrite (nth_indep _ _ (part 0)) by (rewrite map_length, seq_length; exact P). rewrite map_nth, seq_nth by exact P. reflexivity. }
    destruct (merge_some (map part (seq 0 nparts))) as (y & E).
    { exists (part q). split; [apply in_map, in_seq; lia|]. unfold part. cbn [s_ids]. specialize (SO q Q). unfold sound in SO. destruct (load_partition x q) as [ids codes ex]. cbn [s_ids s_codes] in *. clear - I NM SO. revert codes SO. induction ids as [|k ids IH]; intros [|c codes] L; try discriminate L; [destruct I|].
      cbn [remap_rows]. destruct I as [->|I].
      - destruct (remap_rows mapping ids codes). unfold moved. destruct (mapping i) as [[j|]|]; [discriminate|congruence|discriminate].
      - specialize (IH I codes ltac:(cbn in L; lia)). destruct (remap_rows mapping ids codes). cbn [fst] in IH. destruct (moved mapping k); [discriminate|exact IH]. }
    exists y. split; [exact E|]. intros p P. destruct (merge_load _ y S E p) as [L1 L2]; [now rewrite map_length, seq_length|]. rewrite (NTH p P) in L1, L2. split; [|split; [exact L1|exact L2]]. unfold sound. rewrite L1, L2. rewrite Forall_forall in S. apply (S (part p)). apply in_map, in_seq. lia.
  Qed.
  Definition survives (x : vindex) : Prop := exists p i, p < nparts /\ In i (s_ids (load_partition x p)) /\ mapping i <> Some None.
  Theorem remap_exact_s : forall x, pq = false -> (forall p, p < nparts -> sound (load_partition x p)) -> x_extra x = false -> survives x -> exists y, remap nparts mapping x = Some y /\ forall p, p < nparts -> held pq m y p = flat_map goes (held pq m x p).
  Proof.
    intros x PQ SO EX SV. destruct (remap_load x SO EX SV) as (y & E & L). exists y. split; [exact E|]. intros p P. destruct (L p P) as (L0 & L1 & L2). unfold held. rewrite PQ, !entries_flat by auto. rewrite L1, L2. apply remap_rows_ok. now apply SO.
  Qed.
  (* with product quantization, when no row of the index was deleted *)
  Theorem remap_pq_s : forall x, (forall p, p < nparts -> sound (load_partition x p)) -> x_extra x = false -> survives x -> (forall p i, p < nparts -> In i (s_ids (load_partition x p)) -> mapping i <> Some None) -> exists y, remap nparts mapping x = Some y /\ forall p, p < nparts -> held pq m y p = flat_map goes (held pq m x p).
  Proof.
    intros x SO EX SV ND. destruct (remap_load x SO EX SV) as (y & E & L). exists y. split; [exact E|]. intros p P. destruct (L p P) as (_ & L1 & L2). specialize (SO p P). specialize (ND p). unfold held, entries.
    assert (G : forall ids codes, length codes = length ids -> (forall i, In i ids -> mapping i <> Some None) -> remap_rows mapping ids codes = (map (fun i => match mapping i with Some (Some j) => j | _ => i end) ids, codes)).
    { clear. induction ids as [|i ids IH]; intros [|c codes] LE ND; try discriminate LE; [reflexivity|]. cbn [remap_rows map]. rewrite IH by (try (cbn in LE; lia); intros; apply ND; now right). unfold moved. pose proof (ND i ltac:(now left)). destruct (mapping i) as [[j|]|]; [reflexivity|congruence|reflexivity]. }
    rewrite G in L1, L2 by (try exact SO; intros i I; now apply ND). cbn [fst snd] in L1, L2. rewrite L1, L2, map_length.
    assert (K : forall l (f : nat -> list nat), (forall i, In i l -> mapping i <> Some None) -> map (fun i => (nth i (map (fun i => match mapping i with Some (Some j) => j | _ => i end) l) 0, f i)) (seq 0 (length l)) = flat_map goes (map (fun i => (nth i l 0, f i)) (seq 0 (length l)))).
    { clear. induction l as [|k l IH]; intros f ND; [reflexivity|]. cbn [length seq map flat_map nth]. rewrite <- seq_shift, !map_map. cbn [nth]. specialize (IH (fun i => f (S i)) ltac:(intros; apply ND; now right)). cbn beta in IH. rewrite IH. unfold goes at 2. cbn [fst snd]. pose proof (ND k ltac:(now left)). destruct (mapping k) as [[j|]|]; [reflexivity|congruence|reflexivity]. }
    apply (K _ (fun i => if pq then pq_code m (concat (s_codes (load_partition x p))) i else nth i (s_codes (load_partition x p)) [])). intros i I. now apply ND.
  Qed.
End Moves.

(* A new index: each row once, in the partition of its vector, with the code of its vector. *)
Theorem build_exact : forall V (prep : V -> V) (nearest : V -> option nat) (resid : nat -> V -> V) (quant : V -> list nat) nparts pq m sort buffer_size lookup data,
  0 < m -> (forall v, length (quant v) = m) -> (forall l, Permutation (sort l) l) -> 0 < buffer_size -> 0 < nparts -> (forall v p, nearest v = Some p -> p < nparts) ->
  concat data <> [] -> nparts = 1 \/ hd [] data <> [] ->
  exists x, build prep nearest resid quant nparts pq m sort buffer_size lookup data = Some x /\
    (forall p, p < nparts -> Permutation (held pq m x p) (want prep nearest resid quant (concat data) p) /\ sound (load_partition x p)) /\
    Permutation (flat_map (fun p => map fst (held pq m x p)) (seq 0 nparts)) (map fst (concat data)).
Proof. intros V prep nearest resid quant nparts pq m sort bs lookup data M W SP B NP NR N H. apply build_exact_s; try assumption. unfold shuffles. tauto. Qed.
(* Merging indices with new rows, when vectors are quantized as they are and no indexed row was deleted. *)
Theorem optimize_plain_partial : forall V (nearest : V -> option nat) (quant : V -> list nat) nparts pq m sort buffer_size lookup vec dataset existing data,
  0 < m -> (forall v, length (quant v) = m) -> (forall l, Permutation (sort l) l) -> 0 < buffer_size -> 0 < nparts -> (forall v p, nearest v = Some p -> p < nparts) ->
  (forall p e i, p < nparts -> In e existing -> In i (map fst (held pq m e p)) -> lookup i = Some (vec i)) -> nparts = 1 \/ data = [] \/ hd [] data <> [] ->
  concat data <> [] \/ (exists p e, p < nparts /\ In e existing /\ held pq m e p <> []) ->
  exists x, optimize (fun v => v) nearest (fun _ v => v) quant nparts pq m sort buffer_size lookup dataset existing (Some data) = Some x /\
  forall p, p < nparts -> Permutation (held pq m x p) (map (fun i => (i, quant (vec i))) (flat_map (fun e => map fst (held pq m e p)) existing) ++ want (fun v => v) nearest (fun _ v => v) quant (concat data) p) /\ sound (load_partition x p).
Proof.
  intros V nearest quant nparts pq m sort bs lookup vec dataset existing data M W SP B NP NR LV H N.
  assert (K : forall e p, map fst (held pq m e p) = s_ids (load_partition e p)). { intros e p. unfold held, entries. rewrite map_map. cbn [fst]. apply map_nth_seq. }
  assert (K2 : forall p, flat_map (fun e => map fst (held pq m e p)) existing = listed existing p). { intros p. unfold listed. clear - K. induction existing as [|e l IH]; [reflexivity|]. cbn [flat_map]. now rewrite K, IH. }
  destruct (optimize_plain_s (fun v => v) nearest (fun _ v => v) quant nparts pq m sort bs lookup M W SP B NP NR vec dataset existing data) as (x & E & L); try assumption; try reflexivity.
  - intros p i P I. unfold listed in I. apply in_flat_map in I as (e & I & J). apply (LV p e i P I). now rewrite K.
  - destruct N as [N|(p & e & P & I & N)]; [now left|right]. exists p. split; [exact P|]. intros Z. apply N. unfold listed in Z. assert (Q : s_ids (load_partition e p) = []). { clear - Z I. induction existing as [|a l IH]; [destruct I|]. cbn [flat_map] in Z. apply app_eq_nil in Z as [Z1 Z2]. destruct I as [->|I]; [exact Z1|now apply IH]. } rewrite <- K in Q. now apply map_eq_nil in Q.
  - exists x. split; [exact E|]. intros p P. rewrite K2. now apply L.
Qed.
(* Remapping rows moved by compaction: codes stored row by row. *)
Theorem remap_exact : forall nparts m mapping x, (forall p, p < nparts -> sound (load_partition x p)) -> x_extra x = false -> (exists p e, p < nparts /\ In e (held false m x p) /\ mapping (fst e) <> Some None) ->
  exists y, remap nparts mapping x = Some y /\ forall p, p < nparts -> held false m y p = flat_map (goes mapping) (held false m x p).
Proof.
  intros nparts m mapping x SO EX (p & e & P & I & N). apply (remap_exact_s nparts false m mapping); try assumption; [reflexivity|]. exists p, (fst e). split; [exact P|]. split; [|exact N]. apply (in_map fst) in I. unfold held, entries in I. rewrite map_map in I. cbn [fst] in I. now rewrite map_nth_seq in I.
Qed.
(* Codes of product quantization: when no indexed row was deleted. *)
Theorem remap_pq_partial : forall nparts m mapping x, (forall p, p < nparts -> sound (load_partition x p)) -> x_extra x = false -> (exists p, p < nparts /\ held true m x p <> []) -> (forall p e, p < nparts -> In e (held true m x p) -> mapping (fst e) <> Some None) ->
  exists y, remap nparts mapping x = Some y /\ forall p, p < nparts -> held true m y p = flat_map (goes mapping) (held true m x p).
Proof.
  intros nparts m mapping x SO EX (p & P & NE) ND. assert (K : forall p, s_ids (load_partition x p) = map fst (held true m x p)). { intros q. unfold held, entries. rewrite map_map. cbn [fst]. symmetry. apply map_nth_seq. }
  apply (remap_pq_s nparts true m mapping); try assumption.
  - destruct (held true m x p) as [|e l] eqn:E; [congruence|]. exists p, (fst e). split; [exact P|]. rewrite K, E. split; [now left|]. apply (ND p e P). rewrite E. now left.
  - intros q i Q I. rewrite K in I. apply in_map_iff in I as (e & <- & I). now apply (ND q e Q).
Qed.
