(* Proofs about reading blob columns with empty values, and about BlobFile (C117, C118). *)
From Coq Require Import List Arith NArith Lia Bool.
From Verif Require Import Lib SchedModel SchedProofs BitsModel BlobModel BlobProofs.
Import ListNotations.

(* ---- an empty value cannot be read from a file ---- *)
Lemma reslice_empty : forall {B} fuel (us : list (range * list B)) req l, In (0, 0) req -> reslice fuel us req = Done l -> length l < length req.
Proof.
  induction fuel as [|k IH]; intros us req l I H.
  - cbn [reslice] in H. injection H as <-. destruct req; [contradiction|]. cbn [length]. lia.
  - destruct us as [|[u buf] us]; cbn [reslice] in H.
    + injection H as <-. destruct req; [contradiction|]. cbn [length]. lia.
    + destruct req as [|o os]; [contradiction|]. destruct (is_overlapping u o) eqn:E; [|eapply IH; eauto].
      destruct I as [->|I].
      * unfold is_overlapping in E. cbn [fst snd] in E. apply andb_prop in E. destruct E as [E _]. apply Nat.ltb_lt in E. lia.
      * destruct (slice buf o (fst u)); [|discriminate]. destruct (reslice k ((u, buf) :: us) os) as [x| |] eqn:E2; try discriminate.
        injection H as <-. cbn [length]. specialize (IH _ _ _ I E2). lia.
Qed.
Lemma file_io_empty : forall {B} (file : list B) bs ds l, In (0, 0) ds -> file_io file bs (map rng ds) = Done l -> length l < length ds.
Proof.
  intros B file bs ds l I H. unfold file_io, submit_request in H. destruct (sequence_opt _); [|discriminate].
  apply reslice_empty in H; [now rewrite map_length in H|]. apply in_map_iff. exists (0, 0). auto.
Qed.
Theorem empty_unreadable : forall {B} (file : list B) bs ds n out, 0 < n -> n <= length ds -> In (0, 0) (firstn n ds) ->
  read_column (file_io file bs) [ds] [n] <> Done out.
Proof.
  intros B file bs ds n out N0 L I H. unfold read_column in H. cbn [map read_batches] in H.
  unfold child_wait in H. cbn [ch_scheduled ch_rows_popped ch_rows_drained wait_pages] in H.
  change (num_rows (new_page ds)) with (length ds) in H. change (bp_rows_loaded (new_page ds)) with 0 in H.
  assert (0 <? length ds - 0 = true) as E0 by (apply Nat.ltb_lt; lia). rewrite E0 in H.
  assert ((0 + n - 1 <? 0) || (length ds =? 0) = false) as E1 by (apply orb_false_iff; rewrite Nat.ltb_ge, Nat.eqb_neq; lia). rewrite E1 in H.
  unfold page_wait in H. change (num_rows (new_page ds)) with (length ds) in H. cbn [bp_rows_loaded bp_descs new_page bp_loaded bp_validity bp_rows_drained app skipn] in H.
  replace (Nat.min (Nat.min (length ds - 1) (0 + n - 1 - 0) + 1) (length ds)) with n in H by lia.
  assert (n <? 0 = false) as E2 by (apply Nat.ltb_ge; lia). rewrite E2, Nat.sub_0_r in H.
  change (fun d : nat * nat => (fst d, fst d + snd d)) with rng in H.
  destruct (file_io file bs (map rng (firstn n ds))) as [l| |] eqn:E; try discriminate.
  apply file_io_empty in E; auto. rewrite firstn_length in E. cbn [rbind fst snd bp_rows_loaded] in H.
  assert (0 + n - 1 <? 0 + n = true) as E3 by (apply Nat.ltb_lt; lia). rewrite E3 in H. cbn [rbind] in H.
  unfold child_drain in H. cbn [ch_scheduled ch_rows_popped ch_rows_drained drain_pages] in H.
  assert (n =? 0 = false) as E4 by (apply Nat.eqb_neq; lia). rewrite E4 in H. unfold rows_left, num_rows in H. cbn [bp_descs bp_rows_drained] in H.
  unfold page_drain in H. cbn [bp_loaded] in H.
  assert (length l <? Nat.min n (length ds - 0) = true) as E5 by (apply Nat.ltb_lt; lia). rewrite E5 in H. discriminate.
Qed.
(* whatever else is written, a column with an empty value among the first n rows of
   a page cannot be read in a batch of n *)
Theorem empty_value_fails : forall {B} (z : B) k batches dss file i n block_size out,
  Forall (fun b => length (fst b) = k /\ Forall array_ok (fst b)) batches -> write_file z k [] batches = (dss, file) ->
  0 < n -> n <= length (nth i dss []) -> In (Some []) (firstn n (flat_map (fun b => col_values i (fst b)) batches)) ->
  read_column (file_io file block_size) [nth i dss []] [n] <> Done out.
Proof.
  intros B z k batches dss file i n bs out HB HW N0 L I. apply empty_unreadable; auto.
  destruct (write_file_spec z k batches [] dss file HB HW) as (_ & _ & _ & Y). destruct (Y i) as [_ F].
  revert I. clear L N0. revert n. induction F as [|d v l l' H1 _ IH]; intros [|n] I; cbn [firstn] in *; try contradiction.
  destruct I as [->|I]; [left|right; auto]. cbn [desc_ok] in H1. auto.
Qed.

(* ---- BlobFile ---- *)
(* a file with content v, as io.RawIOBase has it: the cursor, None once closed *)
Definition spec_step {B} (v : list B) (c : option nat) (o : op) : @out B * option nat :=
  match c, o with
  | _, Close => (OUnit, None)
  | None, _ => (OErr, None)
  | Some c, ReadAll => (OBytes (skipn c v), Some (Nat.max c (length v)))
  | Some c, Read n => (OBytes (firstn n (skipn c v)), Some (c + length (firstn n (skipn c v))))
  | Some c, SeekSet k => (OPos k, Some k)
  | Some c, SeekCur k => (OPos (c + k), Some (c + k))
  | Some c, SeekEnd => (OPos (length v), Some (length v))
  | Some c, Tell => (OPos c, Some c)
  end.
Fixpoint spec_execs {B} (v : list B) (c : option nat) (l : list op) : list (@out B) :=
  match l with [] => [] | o :: t => let '(r, c') := spec_step v c o in r :: spec_execs v c' t end.
(* the calls that keep the cursor within the file and do not use it after ReadAll
   before a seek from the start or the end.  fresh: the cursor was not left by
   ReadAll *)
Fixpoint tame {B} (v : list B) (fresh : bool) (c : option nat) (l : list op) : Prop :=
  match l with
  | [] => True
  | o :: t =>
      (match o, c with
       | SeekSet k, _ => k <= length v
       | SeekCur k, Some c => fresh = true /\ c + k <= length v
       | (Read _ | Tell), Some _ => fresh = true
       | _, _ => True
       end) /\ tame v (match o with ReadAll => match c with Some _ => false | None => fresh end | SeekSet _ | SeekEnd => true | _ => fresh end) (snd (spec_step v c o)) t
  end.
Definition content {B} (data : list B) (f : blobfile) : list B := bytes_of data (bf_position f, bf_position f + bf_size f).
Definition agree {B} (v : list B) (fresh : bool) (f : blobfile) (c : option nat) : Prop :=
  match bf_state f, c with
  | Closed, None => True
  | (Open x | Uninitialized x), Some c => c <= length v /\ (if fresh then x = c else x = bf_position f + bf_size f /\ c = length v)
  | _, _ => False
  end.
Lemma content_length : forall {B} (data : list B) f, bf_position f + bf_size f <= length data -> length (content data f) = bf_size f.
Proof. intros. unfold content, bytes_of. cbn [fst snd]. rewrite firstn_length, skipn_length. lia. Qed.
Lemma skipn_content : forall {B} (data : list B) f c n, bf_position f + bf_size f <= length data -> c + n <= bf_size f ->
  firstn n (skipn (bf_position f + c) data) = firstn n (skipn c (content data f)).
Proof.
  intros B data f c n L H. unfold content, bytes_of. cbn [fst snd]. rewrite skipn_firstn_comm, skipn_skipn', firstn_firstn. f_equal. lia.
Qed.
Lemma read_ok : forall {B} (data : list B) f c, bf_position f + bf_size f <= length data -> c <= bf_size f ->
  get_range data (bf_position f + c) (bf_position f + bf_size f) = Done (skipn c (content data f)).
Proof.
  intros B data f c L H. unfold get_range. pose proof (content_length data f L) as CL.
  destruct (bf_position f + bf_size f <=? bf_position f + c) eqn:E.
  - apply Nat.leb_le in E. rewrite skipn_all2 by lia. reflexivity.
  - assert (bf_position f + bf_size f <=? length data = true) as -> by (apply Nat.leb_le; auto). f_equal.
    replace (bf_position f + bf_size f - (bf_position f + c)) with (bf_size f - c) by lia.
    rewrite skipn_content by lia. apply firstn_all2. rewrite skipn_length. lia.
Qed.
Lemma read_up_to_ok : forall {B} (data : list B) f c n, bf_position f + bf_size f <= length data -> c <= bf_size f ->
  get_range data (bf_position f + c) (bf_position f + c + Nat.min n (bf_size f - c)) = Done (firstn n (skipn c (content data f))).
Proof.
  intros B data f c n L H. unfold get_range. pose proof (content_length data f L) as CL.
  assert (F : firstn n (skipn c (content data f)) = firstn (Nat.min n (bf_size f - c)) (skipn c (content data f))).
  { destruct (Nat.le_gt_cases n (bf_size f - c)); [now rewrite Nat.min_l by lia|]. rewrite Nat.min_r by lia. rewrite !firstn_all2; auto; rewrite skipn_length; lia. }
  rewrite F. destruct (bf_position f + c + Nat.min n (bf_size f - c) <=? bf_position f + c) eqn:E.
  - apply Nat.leb_le in E. replace (Nat.min n (bf_size f - c)) with 0 by lia. reflexivity.
  - assert (bf_position f + c + Nat.min n (bf_size f - c) <=? length data = true) as -> by (apply Nat.leb_le; lia). f_equal.
    replace (bf_position f + c + Nat.min n (bf_size f - c) - (bf_position f + c)) with (Nat.min n (bf_size f - c)) by lia.
    apply skipn_content; lia.
Qed.
Lemma tame_closed : forall {B} (v : list B) l b b', tame v b None l -> tame v b' None l.
Proof.
  induction l as [|o t IH]; intros b b' H; cbn [tame] in *; auto.
  destruct H as [H1 H2]. split; [destruct o; auto|]. assert (N : snd (spec_step v None o) = None) by (destruct o; reflexivity). rewrite N in *. eauto.
Qed.
Lemma exec_ok : forall {B} (data : list B) debug f fresh c o t, bf_position f + bf_size f <= length data ->
  agree (content data f) fresh f c -> tame (content data f) fresh c (o :: t) ->
  exists f' fresh', exec data debug f o = (fst (spec_step (content data f) c o), f') /\ bf_position f' = bf_position f /\ bf_size f' = bf_size f /\
    agree (content data f) fresh' f' (snd (spec_step (content data f) c o)) /\ tame (content data f) fresh' (snd (spec_step (content data f) c o)) t.
Proof.
  intros B data debug f fresh c o t L A T. pose proof (content_length data f L) as CL. cbn [tame] in T. destruct T as [T1 T2].
  assert (CR : forall x, content data (with_state f x) = content data f) by reflexivity.
  assert (CP : forall s, bf_state f = s -> f = with_state f s) by (intros s <-; destruct f; reflexivity).
  destruct c as [c|].
  2:{ (* closed *)
    assert (ST : bf_state f = Closed) by (unfold agree in A; destruct (bf_state f); tauto).
    assert (N : snd (spec_step (content data f) None o) = None) by (destruct o; reflexivity). rewrite N in *.
    exists (match o with Close => bf_close f | _ => f end), fresh. repeat split.
    - destruct o; cbn [exec spec_step fst]; unfold bf_read, bf_read_up_to, do_with_reader, py_seek, bf_seek, bf_tell; rewrite ?ST; reflexivity.
    - destruct o; reflexivity.
    - destruct o; reflexivity.
    - unfold agree. destruct o; cbn [bf_close with_state bf_state]; rewrite ?ST; exact Logic.I.
    - eapply tame_closed; eauto. }
  assert (ST : exists x, (bf_state f = Open x \/ bf_state f = Uninitialized x) /\ c <= bf_size f /\ (if fresh then x = c else x = bf_position f + bf_size f /\ c = bf_size f)).
  { unfold agree in A. rewrite CL in A. destruct (bf_state f); try contradiction; eexists; split; eauto. }
  destruct ST as (x & ST & LC & HX).
  assert (RD : forall T (func : nat -> res (nat * T)), do_with_reader f func = match func x with Done (c', y) => (Done y, with_state f (Open c')) | Failed => (Failed, with_state f (Open x)) | Panic => (Panic, with_state f (Open x)) end).
  { intros. unfold do_with_reader. destruct ST as [-> | ->]; reflexivity. }
  assert (TL : bf_tell f = Done x) by (unfold bf_tell; destruct ST as [-> | ->]; reflexivity).
  assert (SK : forall k, exists s, bf_seek f k = (Done tt, with_state f s) /\ (s = Open k \/ s = Uninitialized k)).
  { intros k. unfold bf_seek. destruct ST as [-> | ->]; eexists; split; eauto. }
  assert (PS : forall k, exists s, @py_seek B f (Done k) = (OPos k, with_state f s) /\ (s = Open k \/ s = Uninitialized k)).
  { intros k. unfold py_seek. destruct (SK k) as (s & -> & S). exists s. split; auto. unfold bf_tell. cbn [bf_state with_state]. destruct S as [-> | ->]; reflexivity. }
  assert (AG : forall s k, (s = Open k \/ s = Uninitialized k) -> k <= bf_size f -> agree (content data f) true (with_state f s) (Some k)).
  { intros s k S LK. unfold agree. cbn [bf_state with_state]. rewrite CL. destruct S as [-> | ->]; auto. }
  destruct o as [|n|k|k| | |]; cbn [spec_step fst snd] in *.
  - (* ReadAll *)
    cbn [exec]. unfold bf_read. rewrite RD. destruct fresh.
    + subst x. rewrite (read_ok data f c L LC). cbn [rbind of_bytes]. exists (with_state f (Open (bf_position f + bf_size f))), false.
      do 3 (split; [reflexivity|]). split; [|exact T2]. unfold agree. cbn [bf_state with_state bf_position bf_size]. rewrite CL. repeat split; lia.
    + destruct HX as [-> ->]. assert (G : get_range data (bf_position f + (bf_position f + bf_size f)) (bf_position f + bf_size f) = Done []).
      { unfold get_range. assert (bf_position f + bf_size f <=? bf_position f + (bf_position f + bf_size f) = true) as -> by (apply Nat.leb_le; lia). reflexivity. }
      rewrite G. cbn [rbind of_bytes]. exists (with_state f (Open (bf_position f + bf_size f))), false.
      split; [rewrite skipn_all2 by lia; reflexivity|]. do 2 (split; [reflexivity|]). split; [|exact T2]. unfold agree. cbn [bf_state with_state bf_position bf_size]. rewrite CL. repeat split; lia.
  - (* Read *)
    subst fresh. cbn beta iota in HX. subst x. cbn [exec]. unfold bf_read_up_to. rewrite RD.
    assert (bf_size f <? c = false) as -> by (apply Nat.ltb_ge; auto). cbn [andb]. rewrite (read_up_to_ok data f c n L LC). cbn [rbind of_bytes].
    assert (LN : length (firstn n (skipn c (content data f))) = Nat.min n (bf_size f - c)) by (rewrite firstn_length, skipn_length, CL; lia).
    exists (with_state f (Open (bf_position f + c + Nat.min n (bf_size f - c) - bf_position f))), true. do 3 (split; [reflexivity|]). split; [|exact T2].
    unfold agree. cbn [bf_state with_state]. rewrite CL, LN. lia.
  - (* SeekSet *)
    cbn [exec]. destruct (PS k) as (s & -> & S). exists (with_state f s), true. do 3 (split; [reflexivity|]). split; [|exact T2]. apply AG; auto. lia.
  - (* SeekCur *)
    destruct T1 as [-> T1]. cbn beta iota in HX. subst x. cbn [exec]. rewrite TL. cbn [rbind]. destruct (PS (c + k)) as (s & -> & S).
    exists (with_state f s), true. do 3 (split; [reflexivity|]). split; [|exact T2]. apply AG; auto. lia.
  - (* SeekEnd *)
    cbn [exec]. destruct (PS (bf_size f)) as (s & -> & S). exists (with_state f s), true. split; [now rewrite CL|]. do 2 (split; [reflexivity|]). split; [|exact T2]. rewrite CL. apply AG; auto.
  - (* Tell *)
    subst fresh. cbn beta iota in HX. subst x. exists f, true. cbn [exec]. rewrite TL. do 3 (split; [reflexivity|]). split; [exact A|exact T2].
  - (* Close *)
    exists (bf_close f), fresh. do 3 (split; [reflexivity|]). split; [exact Logic.I|exact T2].
Qed.
Lemma execs_ok : forall {B} (data : list B) debug l f fresh c, bf_position f + bf_size f <= length data ->
  agree (content data f) fresh f c -> tame (content data f) fresh c l -> execs data debug f l = spec_execs (content data f) c l.
Proof.
  induction l as [|o t IH]; intros f fresh c L A T; auto.
  destruct (exec_ok data debug f fresh c o t L A T) as (f' & fresh' & E1 & E2 & E3 & E4 & E5).
  cbn [execs spec_execs]. rewrite E1. destruct (spec_step (content data f) c o) as [r c'] eqn:E. cbn [fst snd] in *.
  f_equal. assert (EC : content data f' = content data f) by (unfold content; now rewrite E2, E3).
  rewrite <- EC in *. apply IH with fresh'; auto. lia.
Qed.
(* the blobs of the rows are files with the values of the rows, in order *)
Theorem take_blobs_ok : forall {B} (files : N -> option (list B)) debug rows vs,
  Forall2 (fun r v => exists data, files (N.div (fst r) (2 ^ 32)) = Some data /\ 1 <= length data /\ desc_ok data (snd r) v) rows vs ->
  exists blobs, take_blobs files rows = Done blobs /\
    Forall2 (fun b v => let val := match v with Some l => l | None => [] end in
             forall l, tame val true (Some 0) l -> execs (fst b) debug (snd b) l = spec_execs val (Some 0) l) blobs vs.
Proof.
  intros B files debug rows vs H. induction H as [|[addr d] v rows vs (data & H1 & H2 & H3) _ (bs & I1 & I2)]; cbn [take_blobs].
  - exists []. split; constructor.
  - cbn [fst snd] in *. rewrite H1, I1. cbn [rbind]. eexists. split; [reflexivity|]. constructor; auto. cbn [fst snd].
    set (f := bf_new (fst d) (snd d)).
    assert (LC : bf_position f + bf_size f <= length data /\ content data f = match v with Some l => l | None => [] end).
    { unfold f, bf_new, content. cbn [bf_position bf_size]. destruct v as [[|x l]|]; cbn [desc_ok] in H3.
      - subst d. cbn [fst snd]. split; [lia|reflexivity].
      - destruct H3 as (G1 & G2 & G3). split; auto.
      - subst d. cbn [fst snd]. split; [lia|]. unfold bytes_of. reflexivity. }
    destruct LC as [L C]. intros l T. rewrite <- C in *. apply execs_ok with true; auto.
    unfold agree, f, bf_new. cbn [bf_state]. split; auto. lia.
Qed.
