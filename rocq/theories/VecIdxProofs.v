(* A vector index holds each row once, in its partition, with the code of its vector. *)
From Coq Require Import List Arith Bool Lia Permutation.
From Verif Require Import Lib PageModel VecIdxModel.
Import ListNotations.
Local Open Scope nat_scope.

(* ---- codes ---- *)
Lemma concat_len : forall m (l : list (list nat)), Forall (fun c => length c = m) l -> length (concat l) = length l * m.
Proof. induction l as [|c l IH]; intros F; [reflexivity|]. apply Forall_cons_iff in F as [F0 F]. cbn [concat length]. rewrite app_length, F0, IH by exact F. lia. Qed.
Lemma nth_concat : forall m (l : list (list nat)) i j, Forall (fun c => length c = m) l -> j < m -> nth (i * m + j) (concat l) 0 = nth j (nth i l []) 0.
Proof.
  induction l as [|c l IH]; intros i j F J; [cbn [concat]; replace (nth i (@nil (list nat)) []) with (@nil nat) by (destruct i; reflexivity); now rewrite !nth_overflow by (cbn; lia)|]. apply Forall_cons_iff in F as [F0 F]. destruct i as [|i]; cbn [concat nth Nat.mul].
  - apply app_nth1. rewrite F0. exact J.
  - rewrite app_nth2 by lia. rewrite F0. replace (m + i * m + j - m) with (i * m + j) by lia. now apply IH.
Qed.
Lemma map_nth_seq : forall (l : list nat), map (fun j => nth j l 0) (seq 0 (length l)) = l.
Proof. induction l as [|x l IH]; [reflexivity|]. cbn [length seq map nth]. f_equal. rewrite <- seq_shift, map_map. cbn [nth]. exact IH. Qed.
Lemma every_blocks : forall n i (blocks : list (list nat)) fuel, i < n -> Forall (fun b => length b = n) blocks -> length blocks <= fuel -> every fuel n (skipn i (concat blocks)) = map (fun b => nth i b 0) blocks.
Proof.
  intros n i. induction blocks as [|b blocks IH]; intros fuel I F L; [cbn; rewrite skipn_nil; destruct fuel; reflexivity|]. apply Forall_cons_iff in F as [F0 F]. cbn [length] in L. destruct fuel as [|fuel]; [lia|].
  cbn [concat]. rewrite skipn_app, (proj2 (Nat.sub_0_le i (length b))) by lia. rewrite skipn_O. destruct (skipn i b) as [|x r] eqn:E; [apply (f_equal (@length nat)) in E; rewrite skipn_length in E; cbn in E; lia|].
  cbn [every app map]. assert (LR : length (x :: r) = n - i) by (rewrite <- E, skipn_length; lia). f_equal.
  - rewrite <- (firstn_skipn i b), E. rewrite app_nth2 by (rewrite firstn_length; lia). rewrite firstn_length, Nat.min_l by lia. now rewrite Nat.sub_diag.
  - change (x :: r ++ concat blocks) with ((x :: r) ++ concat blocks). rewrite skipn_app, LR, skipn_all2 by (rewrite LR; lia). replace (n - (n - i)) with i by lia. cbn [app]. apply IH; [exact I|exact F|lia].
Qed.
Lemma concat_chunks : forall m (l : list nat) n, 0 < m -> length l = n * m -> concat (chunks m l) = l /\ length (chunks m l) = n.
Proof.
  intros m l n M L. unfold chunks. rewrite L, Nat.div_mul by lia. split; [|now rewrite map_length, seq_length].
  assert (G : forall k a, a + k <= n -> concat (map (fun i => slice (i * m) (i * m + m) l) (seq a k)) = slice (a * m) ((a + k) * m) l).
  { induction k as [|k IH]; intros a A; cbn [seq map concat]; [unfold slice; replace ((a + 0) * m - a * m) with 0 by lia; reflexivity|]. rewrite IH by lia. unfold slice. replace (a * m + m - a * m) with m by lia. replace ((S a + k) * m - S a * m) with (k * m) by lia. replace ((a + S k) * m - a * m) with (m + k * m) by lia.
    replace (S a * m) with (a * m + m) by lia. rewrite <- (firstn_skipn m (firstn (m + k * m) (skipn (a * m) l))). rewrite firstn_firstn, Nat.min_l by lia. f_equal. rewrite skipn_firstn_comm. rewrite skipn_skipn'. f_equal. lia. }
  rewrite (G n 0) by lia. cbn [Nat.mul Nat.add]. unfold slice. rewrite Nat.sub_0_r, skipn_O, <- L. apply firstn_all.
Qed.
Lemma transpose_len : forall l n m, length (transpose l n m) = n * m.
Proof.
  intros l n m. unfold transpose. assert (G : forall (ks : list nat), length (flat_map (fun j => map (fun i => nth (i * m + j) l 0) (seq 0 n)) ks) = n * length ks) by (induction ks as [|k ks IH]; [cbn; lia|]; cbn [flat_map length]; rewrite app_length, map_length, seq_length, IH; lia). now rewrite G, seq_length.
Qed.
(* a transposed code reads back *)
Lemma pq_code_ok : forall m codes i, 0 < m -> Forall (fun c => length c = m) codes -> i < length codes -> pq_code m (transpose (concat codes) (length codes) m) i = nth i codes [].
Proof.
  intros m codes i M F I. unfold pq_code. rewrite transpose_len, Nat.div_mul by lia. unfold transpose. rewrite flat_map_concat_map, every_blocks.
  - rewrite map_map. transitivity (map (fun j => nth j (nth i codes []) 0) (seq 0 m)).
    + apply map_ext_in. intros j J. apply in_seq in J. transitivity (nth (i * m + j) (concat codes) 0); [|apply nth_concat; [exact F|lia]]. rewrite (nth_indep _ 0 (nth (0 * m + j) (concat codes) 0)) by (rewrite map_length, seq_length; exact I). rewrite (map_nth (fun i => nth (i * m + j) (concat codes) 0)). rewrite seq_nth by exact I. reflexivity.
    + assert (L : length (nth i codes []) = m) by (apply (proj1 (Forall_forall _ _) F); now apply nth_In). rewrite <- L. apply map_nth_seq.
  - exact I.
  - apply Forall_map. apply Forall_forall. intros j _. now rewrite map_length, seq_length.
  - rewrite map_length, seq_length. nia.
Qed.
Definition wide (m : nat) (c : list nat) : Prop := length c = m.
(* the layout of codes does not matter to what is seen *)
Lemma entries_built : forall V (quant : V -> list nat) pq m rows extra, 0 < m -> (forall v, wide m (quant v)) -> entries pq m (build_storage quant pq m rows extra) = map (fun r => (fst r, quant (snd r))) rows /\ length (s_codes (build_storage quant pq m rows extra)) = length rows.
Proof.
  intros V quant pq m rows extra M W. unfold entries, build_storage. cbn [s_ids s_codes]. set (codes := map (fun r => quant (snd r)) rows).
  assert (F : Forall (fun c => length c = m) codes) by (apply Forall_map, Forall_forall; intros r _; apply W). assert (LC : length codes = length rows) by apply map_length. rewrite map_length.
  assert (G : forall f : nat -> list nat, (forall i, i < length rows -> f i = nth i codes []) -> map (fun i => (nth i (map fst rows) 0, f i)) (seq 0 (length rows)) = map (fun r => (fst r, quant (snd r))) rows).
  { intros f Hf. subst codes. clear F LC. revert f Hf. induction rows as [|r rows IH]; intros f Hf; [reflexivity|]. cbn [length seq map]. f_equal; [rewrite Hf by (cbn; lia); reflexivity|]. rewrite <- seq_shift, map_map. cbn [nth]. apply (IH (fun i => f (S i))). intros i Hi. rewrite Hf by (cbn; lia). reflexivity. }
  destruct pq.
  - pose proof (transpose_len (concat codes) (length rows) m) as TL. destruct (concat_chunks m (transpose (concat codes) (length rows) m) (length rows) M TL) as [C1 C2]. rewrite C1. split; [|exact C2]. apply G. intros i Hi. rewrite <- LC. apply pq_code_ok; [exact M|exact F|now rewrite LC].
  - split; [apply G; reflexivity|exact LC].
Qed.

(* ---- the file ---- *)
Fixpoint starts (a : nat) (l : list storage) : list nat := match l with [] => [] | s :: t => a :: starts (a + length (s_ids s)) t end.
Lemma last_snoc : forall (l : list nat) x, last (l ++ [x]) 0 = x.
Proof. intros l x. apply last_last. Qed.
Lemma add_partitions_ok : forall l offs lens, add_partitions offs lens l = (offs ++ starts (last offs 0 + last lens 0) l, lens ++ map (fun s => length (s_ids s)) l).
Proof. induction l as [|s l IH]; intros offs lens; cbn [add_partitions starts map]; [now rewrite !app_nil_r|]. unfold add_partition. rewrite IH, !last_snoc, <- !app_assoc. reflexivity. Qed.
Lemma slice_block : forall {X} (g : storage -> list X) l p pre, (forall s, In s l -> length (g s) = length (s_ids s)) -> p < length l ->
  slice (nth p (starts (length pre) l) 0) (nth p (starts (length pre) l) 0 + nth p (map (fun s => length (s_ids s)) l) 0) (pre ++ flat_map g l) = g (nth p l {| s_ids := []; s_codes := []; s_extra := false |}).
Proof.
  intros X g. induction l as [|s l IH]; intros p pre H P; [cbn in P; lia|]. destruct p as [|p]; cbn [starts nth map flat_map].
  - unfold slice. replace (length pre + length (s_ids s) - length pre) with (length (g s)) by (rewrite (H s) by (now left); lia). rewrite skipn_app, skipn_all, Nat.sub_diag. cbn [skipn app]. now rewrite firstn_app, Nat.sub_diag, firstn_all, firstn_O, app_nil_r.
  - specialize (IH p (pre ++ g s) ltac:(intros; apply H; now right) ltac:(cbn in P; lia)). rewrite app_length, (H s) in IH by (now left). rewrite <- app_assoc in IH. exact IH.
Qed.
Definition sound (s : storage) : Prop := length (s_codes s) = length (s_ids s).
Lemma full_flat : forall {X} (g : storage -> list X) l, (forall s, In s l -> length (g s) = length (s_ids s)) -> flat_map g (filter (fun s => negb (length (s_ids s) =? 0)) l) = flat_map g l.
Proof.
  intros X g. induction l as [|s l IH]; intros H; [reflexivity|]. cbn [filter flat_map]. pose proof (H s ltac:(now left)) as E. destruct (length (s_ids s) =? 0) eqn:Z; cbn [negb flat_map]; rewrite IH by (intros; apply H; now right); [|reflexivity]. apply Nat.eqb_eq in Z. rewrite Z in E. destruct (g s); [reflexivity|discriminate E].
Qed.
Lemma merge_load : forall parts x, Forall sound parts -> merge_partitions parts = Some x -> forall p, p < length parts -> s_ids (load_partition x p) = s_ids (nth p parts {| s_ids := []; s_codes := []; s_extra := false |}) /\ s_codes (load_partition x p) = s_codes (nth p parts {| s_ids := []; s_codes := []; s_extra := false |}).
Proof.
  intros parts x F H p P. unfold merge_partitions in H. pose proof (full_flat s_ids parts ltac:(reflexivity)) as E1. pose proof (full_flat s_codes parts (fun s I => proj1 (Forall_forall _ _) F s I)) as E2. destruct (filter (fun s => negb (length (s_ids s) =? 0)) parts) as [|s0 full]; [discriminate H|].
  rewrite add_partitions_ok in H. cbn [last app Nat.add] in H. injection H as <-. unfold load_partition. cbn [x_offsets x_lengths x_ids x_codes s_ids s_codes]. cbn [flat_map] in E1, E2. rewrite E1, E2. split.
  - apply (slice_block s_ids parts p [] ltac:(reflexivity) P).
  - apply (slice_block s_codes parts p [] (fun s I => proj1 (Forall_forall _ _) F s I) P).
Qed.
Lemma merge_some : forall parts, (exists s, In s parts /\ s_ids s <> []) -> exists x, merge_partitions parts = Some x.
Proof.
  intros parts (s & I & N). unfold merge_partitions. destruct (filter (fun s => negb (length (s_ids s) =? 0)) parts) as [|s0 full] eqn:E.
  - exfalso. assert (X : In s (filter (fun s => negb (length (s_ids s) =? 0)) parts)) by (apply filter_In; split; [exact I|destruct (s_ids s); [congruence|reflexivity]]). rewrite E in X. destruct X.
  - destruct (add_partitions [] [] parts). eexists. reflexivity.
Qed.
Lemma entries_same : forall pq m a b, s_ids a = s_ids b -> s_codes a = s_codes b -> entries pq m a = entries pq m b.
Proof. intros pq m a b E1 E2. unfold entries. now rewrite E1, E2. Qed.
Lemma collect_some : forall {X Y} (f : X -> option Y) l r, collect (map f l) = Some r -> length r = length l /\ forall i d e, i < length l -> f (nth i l d) = Some (nth i r e).
Proof.
  intros X Y f. induction l as [|x l IH]; intros r H; cbn [map collect] in H; [injection H as <-; split; [reflexivity|intros i d e Hi; cbn in Hi; lia]|].
  destruct (f x) as [y|] eqn:E; [|discriminate H]. cbn [obind] in H. destruct (collect (map f l)) as [r'|]; [|discriminate H]. injection H as <-. destruct (IH r' eq_refl) as [L N]. split; [cbn; now rewrite L|]. intros [|i] d e Hi; [exact E|]. cbn [nth]. apply N. cbn in Hi. lia.
Qed.
Lemma collect_all : forall {X Y} (f : X -> option Y) (g : X -> Y) l, (forall x, In x l -> f x = Some (g x)) -> collect (map f l) = Some (map g l).
Proof. intros X Y f g. induction l as [|x l IH]; intros H; [reflexivity|]. cbn [map collect]. rewrite (H x) by (now left). cbn [obind]. rewrite IH by (intros; apply H; now right). reflexivity. Qed.

(* ---- shuffling ---- *)
Section Shuffle.
  Context {V : Type}.
  Variables (sort : list (@prow V) -> list (@prow V)) (nparts buffer_size : nat).
  Hypothesis sort_perm : forall l, Permutation (sort l) l.
  Definition here (p : nat) (r : @prow V) : bool := part_of r =? p.
  Lemma runs_part : forall (l : list (@prow V)) p, concat (map snd (filter (fun x => fst x =? p) (runs l))) = filter (here p) l.
  Proof.
    induction l as [|x l IH]; intros p; [reflexivity|]. cbn [runs]. specialize (IH p). unfold here at 1. cbn [filter]. unfold here in *. destruct (runs l) as [|[q r] rest].
    - cbn [filter map concat] in IH. rewrite <- IH. cbn [filter fst]. destruct (part_of x =? p); reflexivity.
    - destruct (part_of x =? q) eqn:E.
      + apply Nat.eqb_eq in E. subst q. cbn [filter fst] in *. destruct (part_of x =? p); cbn [map concat snd app] in *; [now rewrite IH|exact IH].
      + cbn [filter fst] in *. destruct (part_of x =? p); cbn [map concat snd app] in *; [now rewrite IH|exact IH].
  Qed.
  Lemma runs_in : forall (l : list (@prow V)) x, In x (runs l) -> exists r, In r l /\ part_of r = fst x.
  Proof.
    induction l as [|y l IH]; intros x H; [destruct H|]. cbn [runs] in H. destruct (runs l) as [|[q r] rest] eqn:E.
    - destruct H as [<-|[]]. exists y. split; [now left|reflexivity].
    - destruct (part_of y =? q) eqn:Q.
      + apply Nat.eqb_eq in Q. destruct H as [<-|H]; [exists y; split; [now left|exact Q]|]. destruct (IH x ltac:(now right)) as (z & I & J). exists z. split; [now right|exact J].
      + destruct H as [<-|H]; [exists y; split; [now left|reflexivity]|]. destruct (IH x H) as (z & I & J). exists z. split; [now right|exact J].
  Qed.
  Definition in_range (b : list (@prow V)) : Prop := Forall (fun r => part_of r < nparts) b.
  Lemma split_ok : forall b, in_range b -> exists f, split nparts sort b = Some f /\ forall p, concat (f p) = filter (here p) (sort b).
  Proof.
    intros b F. unfold split. assert (G : forallb (fun x => fst x <? nparts) (runs (sort b)) = true).
    { apply forallb_forall. intros x I. destruct (runs_in _ _ I) as (r & J & E). apply Nat.ltb_lt. rewrite <- E. apply (proj1 (Forall_forall _ _) F). eapply Permutation_in; [apply sort_perm|exact J]. }
    rewrite G. eexists. split; [reflexivity|]. intros p. cbv beta. apply runs_part.
  Qed.
  Definition kept (s : shuf) (p : nat) : list (@prow V) := h_files s p ++ concat (h_bufs s p).
  Definition told (s : @shuf V) : Prop := forall p, h_sizes s p = length (h_files s p).
  Lemma flush_kept : forall s p, kept (flush_all s) p = kept s p /\ h_files (flush_all s) p = kept s p.
  Proof. intros s p. unfold kept, flush_all. cbn. now rewrite app_nil_r. Qed.
  Lemma flush_told : forall s, told s -> told (flush_all s).
  Proof. intros s T p. cbn. rewrite T, app_length. reflexivity. Qed.
  Lemma filter_perm : forall {X} (f : X -> bool) a b, Permutation a b -> Permutation (filter f a) (filter f b).
  Proof.
    intros X f a b P. induction P; cbn [filter]; [constructor| | |].
    - destruct (f x); [now constructor|exact IHP].
    - destruct (f x), (f y); try reflexivity. constructor.
    - now transitivity (filter f l').
  Qed.
  Lemma step_ok : forall s b, 0 < buffer_size -> in_range b -> told s -> h_first s = false \/ b <> [] -> exists s', shuf_step nparts sort buffer_size s b = Some s' /\ h_first s' = false /\ told s' /\ forall p, Permutation (kept s' p) (kept s p ++ filter (here p) b).
  Proof.
    intros s b B F T N. unfold shuf_step. destruct (split_ok b F) as (f & -> & Hf). cbn [obind].
    assert (Z : h_first s && forallb (fun p => match h_bufs s p ++ f p with [] => true | _ => false end) (seq 0 nparts) = false).
    { destruct N as [->|N]; [reflexivity|]. apply andb_false_iff. right. destruct b as [|r b]; [congruence|]. pose proof (Forall_inv F) as R. cbn beta in R.
      destruct (forallb _ _) eqn:E; [|reflexivity]. rewrite forallb_forall in E. specialize (E (part_of r) ltac:(apply in_seq; lia)). exfalso.
      assert (X : In r (concat (f (part_of r)))). { rewrite Hf. apply filter_In. split; [|apply Nat.eqb_refl]. eapply Permutation_in; [symmetry; apply sort_perm|now left]. }
      destruct (h_bufs s (part_of r)); [|discriminate E]. cbn [app] in E. destruct (f (part_of r)); [destruct X|discriminate E]. }
    rewrite Z. destruct (buffer_size =? 0) eqn:BZ; [apply Nat.eqb_eq in BZ; lia|]. set (s1 := {| h_bufs := fun p => h_bufs s p ++ f p; h_files := h_files s; h_sizes := h_sizes s; h_counter := S (h_counter s); h_first := false |}).
    assert (K : forall p, Permutation (kept s1 p) (kept s p ++ filter (here p) b)). { intros p. unfold kept, s1. cbn [h_files h_bufs]. rewrite concat_app, Hf, app_assoc. apply Permutation_app_head. apply filter_perm. apply sort_perm. }
    assert (T1 : told s1) by exact T. eexists. split; [reflexivity|]. destruct (S (h_counter s) mod buffer_size =? 0).
    - split; [reflexivity|]. split; [now apply flush_told|]. intros p. rewrite (proj1 (flush_kept s1 p)). apply K.
    - split; [reflexivity|]. split; [exact T1|exact K].
  Qed.
  Lemma loop_ok : forall l s, 0 < buffer_size -> Forall in_range l -> told s -> h_first s = false \/ hd [] l <> [] -> exists s', shuf_loop nparts sort buffer_size s l = Some s' /\ (h_first s' = true -> l = [] /\ h_first s = true) /\ told s' /\ forall p, Permutation (kept s' p) (kept s p ++ filter (here p) (concat l)).
  Proof.
    induction l as [|b l IH]; intros s B F T N; cbn [shuf_loop].
    - exists s. split; [reflexivity|]. split; [auto|]. split; [exact T|]. intros p. cbn. now rewrite app_nil_r.
    - apply Forall_cons_iff in F as [F0 F]. destruct (step_ok s b B F0 T N) as (s1 & -> & F1 & T1 & K1). cbn [obind]. destruct (IH s1 B F T1 (or_introl F1)) as (s2 & E2 & F2 & T2 & K2). exists s2. split; [exact E2|]. split; [intros H; destruct (F2 H) as [_ H2]; congruence|]. split; [exact T2|].
      intros p. cbn [concat]. rewrite filter_app. transitivity (kept s1 p ++ filter (here p) (concat l)); [apply K2|]. rewrite app_assoc. apply Permutation_app_tail. apply K1.
  Qed.
  (* what is read from a partition, if it has a size *)
  Definition got (r : reader) (p : nat) : list (@row V) := if 0 <? partition_size r p then read_partition r p else [].
  Lemma shuffle_ok : forall l, 0 < buffer_size -> 0 < nparts -> Forall in_range l -> nparts = 1 \/ hd [] l <> [] -> exists r, shuffle nparts sort buffer_size l = Some r /\ single r = (nparts =? 1) /\ forall p, p < nparts -> Permutation (got r p) (map fst (filter (here p) (concat l))).
  Proof.
    intros l B N F H. unfold shuffle. destruct (nparts =? 1) eqn:E.
    - apply Nat.eqb_eq in E. eexists. split; [reflexivity|]. split; [reflexivity|]. intros p P. unfold got. cbn [partition_size Nat.ltb Nat.leb read_partition]. assert (p = 0) by lia. subst p. replace (filter (here 0) (concat l)) with (concat l); [reflexivity|]. clear H. induction l as [|b l IH]; [reflexivity|]. apply Forall_cons_iff in F as [F0 F]. cbn [concat]. rewrite filter_app, <- IH by exact F. f_equal. clear - F0 E. induction b as [|r b IH]; [reflexivity|]. apply Forall_cons_iff in F0 as [R F0]. cbn [filter]. unfold here at 1. replace (part_of r =? 0) with true by (symmetry; apply Nat.eqb_eq; lia). now rewrite <- IH.
    - apply Nat.eqb_neq in E. destruct H as [H|H]; [lia|]. destruct (loop_ok l shuf0 B F (fun _ => eq_refl) (or_intror H)) as (s & -> & F1 & T & K). cbn [obind]. assert (FS : h_first s = false). { destruct (h_first s); [|reflexivity]. destruct (F1 eq_refl) as [-> _]. cbn in H. congruence. }
      rewrite FS. cbn [andb]. eexists. split; [reflexivity|]. split; [reflexivity|]. intros p P. unfold got. cbn [partition_size read_partition]. rewrite (flush_told s T p), (proj2 (flush_kept s p)). specialize (K p). unfold kept at 2, shuf0 in K. cbn [h_files h_bufs concat app] in K.
      destruct (0 <? length (kept s p)) eqn:Z; [now apply Permutation_map|]. apply Nat.ltb_ge in Z. destruct (kept s p); [|cbn in Z; lia]. apply Permutation_nil in K. rewrite K. reflexivity.
  Qed.
End Shuffle.
