(* C96, C97: adding columns. *)
From Coq Require Import List Arith NArith Bool Lia.
From Verif Require Import Lib AMap RowIdsModel SerdeModel ReadParamsModel DeletionModel DeletionSpec DeletionProofs UpdaterProofs FragReadModel ProjModel AddColsModel FragReadProofs.
Import ListNotations.
Local Open Scope nat_scope.

(* ---- specification ---- *)
Definition afrag_ok {A} (f : afrag A) : Prop := dv_wf (af_del f) /\ forall x, dv_has (af_del f) x -> (x < N.of_nat (af_phys f))%N.
Definition is_live {A} (f : afrag A) (o : nat) : Prop := o < af_phys f /\ ~ dv_has (af_del f) (N.of_nat o).
(* the surviving rows of a fragment *)
Definition live_offs {A} (f : afrag A) : list nat := filter (fun o => negb (deleted_at (af_del f) o)) (seq 0 (af_phys f)).
(* the fragment g is f with a new file: as long as the others, with the values given for the surviving rows *)
Definition holds {A B} (f : afrag A) (vals : list B) (g : ufrag B) : Prop :=
  uf_id g = af_id f /\ uf_del g = af_del f /\ length vals = length (live_offs f) /\
  exists out, uf_col g = Some out /\ length out = af_phys f /\
    forall k o, nth_error (live_offs f) k = Some o -> nth_error out o = nth_error vals k.

Lemma live_offs_in : forall {A} (f : afrag A) o, In o (live_offs f) <-> is_live f o.
Proof.
  intros A f o. unfold live_offs, is_live, deleted_at, dv_has. rewrite filter_In, in_seq, negb_true_iff, memN_false. intuition lia.
Qed.
Lemma alive_live : forall {A} (f : afrag A), alive (dv_items (af_del f)) (N.of_nat (af_phys f)) = map N.of_nat (live_offs f).
Proof.
  intros A f. unfold alive, live_offs, deleted_at. rewrite Nat2N.id. change 0%N with (N.of_nat 0). rewrite nrange_seq, filter_map'. reflexivity.
Qed.
Lemma concat_filter : forall {A B} (g : A -> B) p (l : list (list A)), concat (map (fun c => map g (filter p c)) l) = map g (filter p (concat l)).
Proof. intros A B g p l. induction l as [|c l IH]; cbn [map concat]; [reflexivity|]. rewrite filter_app, map_app, IH. reflexivity. Qed.
Lemma input_concat : forall {A} u (f : afrag A), 0 < batch_rows u -> concat (input_batches u f) = map (af_row f) (live_offs f).
Proof. intros A u f H. unfold input_batches. rewrite concat_filter, chunks_concat by exact H. reflexivity. Qed.
Lemma chunks_nil : forall {A} bs (l : list A), chunks bs l = [] <-> l = [].
Proof. intros A bs [|x l]; unfold chunks; cbn; split; congruence. Qed.

(* ---- writing back ---- *)
Lemma write_back_sound : forall {A B} u (f : afrag A) (new : list (list B)) g, afrag_ok f -> length (concat new) = length (live_offs f) ->
  write_back u f new = Ok g -> holds f (concat new) g.
Proof.
  intros A B u f new g [W P] L H. unfold write_back in H. destruct (run_updater _ new) as [out|] eqn:R; [|discriminate]. injection H as <-.
  assert (new <> []) as NE.
  { intros ->. cbn in R. discriminate. }
  apply (updater_sound _ _ (N.of_nat (af_phys f))) in R; auto.
  - destruct R as [R1 R2]. repeat split; auto. exists out. cbn. repeat split; [destruct new; [congruence|reflexivity]|lia|].
    intros k o K. specialize (R2 k (N.of_nat o)). rewrite Nat2N.id in R2. apply R2. rewrite alive_live, nth_error_map, K. reflexivity.
  - rewrite alive_live, map_length. exact L.
Qed.
Lemma write_back_total : forall {A B} u (f : afrag A) (b : list B) new, afrag_ok f -> length (concat (b :: new)) = length (live_offs f) -> u_legacy u = None ->
  b <> [] -> exists g, write_back u f (b :: new) = Ok g.
Proof.
  intros A B u f b new [W P] L E N. unfold write_back. rewrite E. cbn [omap].
  assert (X : exists out, run_updater (rs_new (af_del f) None) (b :: new) = Some out).
  { apply (updater_complete _ (N.of_nat (af_phys f))); auto. rewrite alive_live, map_length. exact L. }
  destruct X as [out ->]. eauto.
Qed.
Lemma write_back_no_panic : forall {A B} u (f : afrag A) (new : list (list B)), write_back u f new <> Panic.
Proof. intros A B u f new. unfold write_back. destruct (run_updater _ new); discriminate. Qed.

(* ---- mappers ---- *)
Lemma map_batches_ok : forall {A B} (m : list A -> option (list B)) bs new, map_batches m bs = Ok new <-> Forall2 (fun b x => m b = Some x /\ length x = length b) bs new.
Proof.
  intros A B m. induction bs as [|b t IH]; intros new; cbn [map_batches].
  - split; [intros [= <-]; constructor|intros H; inversion H; reflexivity].
  - destruct (m b) as [x|] eqn:M.
    + destruct (Nat.eqb_spec (length x) (length b)) as [E|E].
      * destruct (map_batches m t) as [r| |] eqn:R; cbn [obnd].
        -- split; [intros [= <-]; constructor; [auto|apply IH; reflexivity]|].
           intros H. inversion H as [|? y ? r' [Hy _] H']; subst. apply IH in H'. congruence.
        -- split; [discriminate|]. intros H. inversion H as [|? y ? r' _ H']; subst. apply IH in H'. discriminate.
        -- split; [discriminate|]. intros H. inversion H as [|? y ? r' _ H']; subst. apply IH in H'. discriminate.
      * split; [discriminate|]. intros H. inversion H as [|? y ? r' [Hy L] _]; subst. congruence.
    + split; [discriminate|]. intros H. inversion H as [|? y ? r' [Hy L] _]; subst. congruence.
Qed.
Lemma same_lengths : forall {A B} (R : list A -> list B -> Prop) bs new, (forall b x, R b x -> length x = length b) -> Forall2 R bs new -> length (concat new) = length (concat bs).
Proof. intros A B R bs new H F. induction F as [|b x t u Hb _ IH]; [reflexivity|]. cbn [concat]. rewrite !app_length, IH, (H _ _ Hb). reflexivity. Qed.
(* what the mapper made of the batches is on the rows *)
Theorem fragment_sound : forall {A B} u (m : list A -> option (list B)) f g, afrag_ok f -> 0 < batch_rows u -> add_to_fragment u m f = Ok g ->
  exists new, Forall2 (fun b x => m b = Some x /\ length x = length b) (input_batches u f) new /\ holds f (concat new) g.
Proof.
  intros A B u m f g W H X. unfold add_to_fragment in X. destruct (map_batches m (input_batches u f)) as [new| |] eqn:M; try discriminate. cbn [obnd] in X.
  apply map_batches_ok in M. exists new. split; [exact M|]. apply (write_back_sound u); auto.
  rewrite (same_lengths _ _ _ (fun b x Hx => proj2 Hx) M), input_concat, map_length by exact H. reflexivity.
Qed.
Lemma impl_ok : forall {A B} u (m : list A -> option (list B)) fs gs, add_columns_impl u m fs = Ok gs <-> Forall2 (fun f g => add_to_fragment u m f = Ok g) fs gs.
Proof.
  intros A B u m. induction fs as [|f t IH]; intros gs; cbn [add_columns_impl].
  - split; [intros [= <-]; constructor|intros H; inversion H; reflexivity].
  - split.
    + destruct (add_to_fragment u m f) as [g| |] eqn:G; try discriminate. cbn [obnd]. destruct (add_columns_impl u m t) as [r| |] eqn:R; try discriminate. cbn [obnd].
      intros [= <-]. constructor; [exact G|]. apply IH. reflexivity.
    + intros H. inversion H as [|? g ? r G F]; subst. rewrite G. cbn [obnd]. apply IH in F. rewrite F. reflexivity.
Qed.
(* an expression computed row by row: every surviving row gets its value *)
Definition rowwise {A B} (h : A -> B) : list A -> option (list B) := fun b => Some (map h b).
Definition computed {A B} (h : A -> B) (f : afrag A) (g : ufrag B) : Prop :=
  uf_id g = af_id f /\ uf_del g = af_del f /\
  exists out, uf_col g = Some out /\ length out = af_phys f /\ forall o, is_live f o -> nth_error out o = Some (h (af_row f o)).
Theorem rowwise_sound : forall {A B} u (h : A -> B) fs gs, Forall afrag_ok fs -> 0 < batch_rows u -> add_columns_impl u (rowwise h) fs = Ok gs -> Forall2 (computed h) fs gs.
Proof.
  intros A B u h fs gs W H X. apply impl_ok in X. induction X as [|f g t r G _ IH]; [constructor|].
  inversion W as [|? ? Wf Wt]; subst. constructor; [|apply IH; exact Wt].
  apply fragment_sound in G as (new & F & I & D & L & out & C & Lo & V); auto. split; [exact I|]. split; [exact D|]. exists out. repeat split; auto.
  intros o J. apply live_offs_in in J. apply In_nth_error in J as [k K]. rewrite (V k o K).
  assert (E : concat new = map h (concat (input_batches u f))).
  { clear -F. induction F as [|b x bs new [Hx _] _ IHF]; [reflexivity|]. cbn [concat]. rewrite map_app, IHF. unfold rowwise in Hx. congruence. }
  rewrite E, input_concat, !nth_error_map, K by exact H. reflexivity.
Qed.
(* and it goes through unless everything in the first batch of a fragment was deleted *)
Definition first_live {A} (n : nat) (f : afrag A) : Prop := exists o, o < n /\ is_live f o.
Lemma input_head : forall {A} u (f : afrag A), 0 < batch_rows u -> first_live (batch_rows u) f <->
  exists b t, input_batches u f = b :: t /\ b <> [].
Proof.
  intros A u f H. unfold input_batches, first_live. set (n := batch_rows u) in *. destruct (af_phys f) as [|p] eqn:P.
  - cbn. split; [intros (o & _ & [L _]); rewrite P in L; lia|intros (b & t & E & _); discriminate].
  - change (chunks n (seq 0 (S p))) with (firstn n (seq 0 (S p)) :: chunks_f (length (seq 1 p)) n (skipn n (seq 0 (S p)))). cbn [map].
    rewrite firstn_seq. split.
    + intros (o & L & Lv). do 2 eexists. split; [reflexivity|]. intros E. apply map_eq_nil in E.
      assert (J : In o (filter (fun o => negb (deleted_at (af_del f) o)) (seq 0 (Nat.min n (S p))))).
      { apply filter_In. split; [apply in_seq; destruct Lv; lia|]. destruct Lv as [_ Lv]. unfold deleted_at, dv_has in *. apply negb_true_iff, memN_false. exact Lv. }
      rewrite E in J. destruct J.
    + intros (b & t & [= <- _] & N). destruct (filter (fun o => negb (deleted_at (af_del f) o)) (seq 0 (Nat.min n (S p)))) as [|o l] eqn:E; [destruct N; reflexivity|].
      assert (J : In o (o :: l)) by (left; reflexivity). rewrite <- E in J. apply filter_In in J as [J D]. apply in_seq in J.
      exists o. split; [lia|]. split; [lia|]. unfold deleted_at in D. apply negb_true_iff, memN_false in D. exact D.
Qed.
Theorem rowwise_total : forall {A B} u (h : A -> B) fs, Forall afrag_ok fs -> 0 < batch_rows u -> u_legacy u = None ->
  ((exists gs, add_columns_impl u (rowwise h) fs = Ok gs) <-> Forall (first_live (batch_rows u)) fs).
Proof.
  intros A B u h fs W H L.
  assert (One : forall f, afrag_ok f -> ((exists g, add_to_fragment u (rowwise h) f = Ok g) <-> first_live (batch_rows u) f)).
  { intros f Wf. rewrite (input_head u f H). unfold add_to_fragment.
    assert (M : map_batches (rowwise h) (input_batches u f) = Ok (map (map h) (input_batches u f))).
    { apply map_batches_ok. induction (input_batches u f) as [|b t IH]; cbn [map]; constructor; auto. split; [reflexivity|apply map_length]. }
    assert (LC : length (concat (map (map h) (input_batches u f))) = length (live_offs f)) by (rewrite <- concat_map, map_length, input_concat, map_length by exact H; reflexivity).
    rewrite M. cbn [obnd]. split.
    - intros [g G]. unfold write_back in G. destruct (input_batches u f) as [|b t] eqn:IB; [cbn in G; discriminate|]. exists b, t. split; [reflexivity|].
      intros ->. cbn [map] in G, LC. rewrite L in G. cbn [omap] in G. destruct (run_updater (rs_new (af_del f) None) ([] :: map (map h) t)) as [out|] eqn:R; [|discriminate].
      assert (X : exists out, run_updater (rs_new (af_del f) None) ([] :: map (map h) t) = Some out) by eauto.
      destruct Wf as [Wd Wp]. apply (updater_complete _ (N.of_nat (af_phys f))) in X; auto; [|rewrite alive_live, map_length; exact LC].
      destruct X as [X|X]; [congruence|].
      (* row 0 would be in the first batch *)
      assert (P : 0 < af_phys f).
      { destruct (af_phys f) eqn:E; [|lia]. unfold input_batches in IB. rewrite E in IB. discriminate. }
      assert (FL : first_live (batch_rows u) f) by (exists 0; split; [exact H|split; [exact P|exact X]]).
      apply (input_head u f H) in FL as (b & t' & E & Nb). rewrite IB in E. injection E as <- _. congruence.
    - intros (b & t & E & N). rewrite E in *. cbn [map] in *. apply write_back_total; auto. destruct b; [congruence|discriminate]. }
  split.
  - intros [gs X]. apply impl_ok in X. induction X as [|f g t r G _ IH]; [constructor|]. inversion W; subst. constructor; [apply One; eauto|auto].
  - intros F. induction F as [|f t Hf _ IH]; [exists []; reflexivity|]. inversion W; subst. destruct IH as [r R]; auto. destruct (proj2 (One f H2) Hf) as [g G].
    exists (g :: r). cbn [add_columns_impl]. rewrite G. cbn [obnd]. rewrite R. reflexivity.
Qed.

(* ---- streams ---- *)
Lemma fill_some : forall {B} (st : list (list B)) n x st', fill n st = Some (x, st') ->
  concat x ++ concat st' = concat st /\ length (concat x) = n /\ (x = [] <-> n = 0) /\ (Forall (fun b => b <> []) st -> Forall (fun b => b <> []) st').
Proof.
  intros B. induction st as [|b t IH]; intros n x st'; cbn [fill].
  - destruct (Nat.eqb_spec n 0) as [->|E]; [|discriminate]. intros [= <- <-]. cbn. tauto.
  - destruct (Nat.eqb_spec n 0) as [->|E]; [intros [= <- <-]; cbn; tauto|]. destruct (Nat.ltb_spec n (length b)) as [L|L].
    + intros [= <- <-]. cbn [concat]. rewrite app_nil_r, app_assoc, firstn_skipn, firstn_length. split; [reflexivity|]. split; [lia|]. split; [split; [discriminate|congruence]|].
      intros F. inversion F; subst. constructor; [|assumption]. intros X. apply (f_equal (@length B)) in X. rewrite skipn_length in X. cbn in X. lia.
    + destruct (fill (n - length b) t) as [[y r]|] eqn:F; [|discriminate]. intros [= <- <-]. destruct (IH _ _ _ F) as (C & Ln & _ & Nn). cbn [concat].
      split; [rewrite <- app_assoc, C; reflexivity|]. split; [rewrite app_length, Ln; lia|]. split; [split; [discriminate|congruence]|]. intros Fb. inversion Fb; auto.
Qed.
Lemma fill_total : forall {B} (st : list (list B)) n, n <= length (concat st) <-> exists x st', fill n st = Some (x, st').
Proof.
  intros B. induction st as [|b t IH]; intros n; cbn [fill concat].
  - destruct (Nat.eqb_spec n 0) as [->|E]; cbn; split; [eauto|lia|lia|]. intros (x & st' & X). discriminate.
  - rewrite app_length. destruct (Nat.eqb_spec n 0) as [->|E]; [split; [eauto|lia]|]. destruct (Nat.ltb_spec n (length b)) as [L|L]; [split; [eauto|lia]|].
    specialize (IH (n - length b)). split.
    + intros X. destruct (proj1 IH) as (x & st' & ->); [lia|]. cbn. eauto.
    + intros (x & st' & X). destruct (fill (n - length b) t) as [[y r]|]; [|discriminate]. enough (n - length b <= length (concat t)) by lia. apply IH. eauto.
Qed.
Lemma fill_all_ok : forall {A B} (bs : list (list A)) (st : list (list B)) new st', fill_all bs st = Ok (new, st') ->
  concat new ++ concat st' = concat st /\ length (concat new) = length (concat bs) /\ Forall2 (fun b x => length x = length b /\ b <> []) bs new /\
  (Forall (fun b => b <> []) st -> Forall (fun b => b <> []) st').
Proof.
  intros A B. induction bs as [|b t IH]; intros st new st'; cbn [fill_all].
  - intros [= <- <-]. cbn. auto.
  - destruct (fill (length b) st) as [[x r]|] eqn:F; [|discriminate]. destruct x as [|x0 x]; [discriminate|].
    destruct (fill_all t r) as [[new' st'']| |] eqn:G; try discriminate. cbn [obnd]. intros [= <- <-].
    destruct (fill_some _ _ _ _ F) as (C & L & Z & N). destruct (IH _ _ _ G) as (C' & L' & F2 & N'). cbn [concat] in *.
    split; [rewrite <- app_assoc, C'; exact C|]. split; [rewrite (app_length (x0 ++ concat x)), (app_length b), L', L; reflexivity|]. split; [|auto].
    constructor; [split; [exact L|]|exact F2]. intros ->. assert (X : x0 :: x = []) by (apply Z; reflexivity). discriminate.
Qed.
Lemma fill_all_total : forall {A B} (bs : list (list A)) (st : list (list B)), Forall (fun b => b <> []) bs ->
  (length (concat bs) <= length (concat st) -> exists new st', fill_all bs st = Ok (new, st')) /\
  (length (concat st) < length (concat bs) -> fill_all bs st = Err).
Proof.
  intros A B. induction bs as [|b t IH]; intros st F; cbn [fill_all concat].
  - cbn. split; [eauto|lia].
  - inversion F as [|? ? Nb Ft]; subst. rewrite app_length. destruct (fill (length b) st) as [[x r]|] eqn:Q.
    + destruct (fill_some _ _ _ _ Q) as (C & L & Z & _). assert (length (concat st) = length b + length (concat r)) as E by (rewrite <- C, app_length, L; reflexivity).
      destruct x as [|x0 x]; [exfalso; apply Nb; destruct b; [reflexivity|]; assert (X : length (a :: b) = 0) by (apply Z; reflexivity); discriminate|].
      destruct (IH r Ft) as [I1 I2]. split; intros K.
      * destruct I1 as (new & st' & ->); [lia|]. cbn [obnd]. eauto.
      * rewrite I2 by lia. reflexivity.
    + split; [|reflexivity]. intros K. exfalso. destruct (proj1 (fill_total st (length b))) as (x & st' & X); [lia|]. congruence.
Qed.
(* what the stream says is on the rows, in the order of the fragments *)
Definition total_live {A} (fs : list (afrag A)) : nat := list_sum (map (fun f => length (live_offs f)) fs).
Lemma stream_fragments_ok : forall {A B} u (fs : list (afrag A)) (st : list (list B)) gs rest, Forall afrag_ok fs -> 0 < batch_rows u ->
  stream_fragments u fs st = Ok (gs, rest) ->
  (exists vals, Forall2 (fun fv g => holds (fst fv) (snd fv) g) (combine fs vals) gs /\ length vals = length fs /\ concat vals ++ concat rest = concat st) /\
  (Forall (fun b => b <> []) st -> Forall (fun b => b <> []) rest).
Proof.
  intros A B u. induction fs as [|f t IH]; intros st gs rest W H; cbn [stream_fragments].
  - intros [= <- <-]. split; [exists []; repeat split; constructor|auto].
  - inversion W as [|? ? Wf Wt]; subst. destruct (fill_all (input_batches u f) st) as [[new st']| |] eqn:Q; try discriminate. cbn [obnd].
    destruct (write_back u f new) as [g| |] eqn:G; try discriminate. cbn [obnd].
    destruct (stream_fragments u t st') as [[r st'']| |] eqn:R; try discriminate. cbn [obnd]. intros [= <- <-].
    destruct (fill_all_ok _ _ _ _ Q) as (C & L & _ & N). destruct (IH _ _ _ Wt H R) as [(vals & F & Lv & Cv) N'].
    split; [|auto]. exists (concat new :: vals). cbn [combine concat length]. split; [|split; [congruence|rewrite <- app_assoc, Cv; exact C]].
    constructor; [|exact F]. apply (write_back_sound u); auto. rewrite L, input_concat, map_length by exact H. reflexivity.
Qed.
Theorem stream_sound : forall {A B} u (fs : list (afrag A)) (st : list (list B)) gs, Forall afrag_ok fs -> 0 < batch_rows u ->
  add_columns_from_stream u fs st = Ok gs ->
  exists vals, length vals = length fs /\ concat vals = concat st /\ Forall2 (fun fv g => holds (fst fv) (snd fv) g) (combine fs vals) gs.
Proof.
  intros A B u fs st gs W H X. unfold add_columns_from_stream in X. destruct (stream_fragments u fs st) as [[r rest]| |] eqn:Q; try discriminate. cbn [obnd] in X.
  destruct rest; [|discriminate]. injection X as <-. destruct (stream_fragments_ok u fs st r [] W H Q) as [(vals & F & L & C) _].
  exists vals. cbn [concat] in C. rewrite app_nil_r in C. auto.
Qed.
(* when it goes through *)
Definition batches_live {A} (u : usize) (f : afrag A) : Prop := input_batches u f <> [] /\ Forall (fun b => b <> []) (input_batches u f).
Lemma stream_fragments_total : forall {A B} u (fs : list (afrag A)) (st : list (list B)), Forall afrag_ok fs -> 0 < batch_rows u -> u_legacy u = None ->
  Forall (batches_live u) fs ->
  (total_live fs <= length (concat st) -> exists gs rest, stream_fragments u fs st = Ok (gs, rest) /\ length (concat st) = total_live fs + length (concat rest)) /\
  (length (concat st) < total_live fs -> stream_fragments u fs st = Err).
Proof.
  intros A B u. induction fs as [|f t IH]; intros st W H L F; cbn [stream_fragments].
  - cbn. split; [eauto|lia].
  - inversion W as [|? ? Wf Wt]; subst. inversion F as [|? ? [NE Fb] Ft]; subst. change (total_live (f :: t)) with (length (live_offs f) + total_live t) in *.
    destruct (fill_all_total (input_batches u f) st Fb) as [T1 T2].
    assert (LI : length (concat (input_batches u f)) = length (live_offs f)) by (rewrite input_concat, map_length by exact H; reflexivity). rewrite LI in *.
    destruct (le_lt_dec (length (live_offs f)) (length (concat st))) as [K|K].
    + destruct (T1 K) as (new & st' & Q). rewrite Q. cbn [obnd]. destruct (fill_all_ok _ _ _ _ Q) as (C & Ln & F2 & _).
      assert (E : length (concat st) = length (live_offs f) + length (concat st')) by (rewrite <- C, app_length, Ln, LI; reflexivity).
      assert (G : exists g, write_back u f new = Ok g).
      { destruct F2 as [|b x bs' new' [Lx Nb] F2']; [congruence|]. apply write_back_total; auto; [rewrite Ln; exact LI|]. destruct x; [destruct b; [congruence|discriminate]|discriminate]. }
      destruct G as [g ->]. cbn [obnd]. destruct (IH st' Wt H L Ft) as [I1 I2]. split; intros X.
      * destruct I1 as (gs & rest & -> & Er); [lia|]. cbn [obnd]. exists (g :: gs), rest. split; [reflexivity|lia].
      * rewrite I2 by lia. reflexivity.
    + split; [intros X; lia|]. intros _. rewrite T2 by exact K. reflexivity.
Qed.
Theorem stream_total : forall {A B} u (fs : list (afrag A)) (st : list (list B)), Forall afrag_ok fs -> 0 < batch_rows u -> u_legacy u = None ->
  Forall (batches_live u) fs -> Forall (fun b => b <> []) st ->
  (length (concat st) = total_live fs -> exists gs, add_columns_from_stream u fs st = Ok gs) /\
  (length (concat st) <> total_live fs -> add_columns_from_stream u fs st = Err).
Proof.
  intros A B u fs st W H L F N. unfold add_columns_from_stream. destruct (stream_fragments_total u fs st W H L F) as [T1 T2].
  destruct (le_lt_dec (total_live fs) (length (concat st))) as [K|K].
  - destruct (T1 K) as (gs & rest & Q & E). rewrite Q. cbn [obnd]. destruct (stream_fragments_ok u fs st gs rest W H Q) as [_ Nr]. specialize (Nr N).
    destruct rest as [|b rest].
    + cbn in E. split; [eauto|lia].
    + inversion Nr as [|? ? Nb _]; subst. cbn [concat] in E. rewrite app_length in E. destruct b; [congruence|]. cbn in E. split; [lia|reflexivity].
  - rewrite T2 by exact K. cbn. split; [lia|reflexivity].
Qed.

(* ---- checkpoints ---- *)
(* what the cache holds was computed from these fragments *)
Definition cache_of {A B} (u : usize) (m : list A -> option (list B)) (fs : list (afrag A)) (c : cache B) : Prop :=
  (forall i k x f b, In ((i, k), x) (ca_batches c) -> In f fs -> af_id f = i -> nth_error (input_batches u f) k = Some b -> m b = Some x) /\
  (forall i g f, In (i, g) (ca_frags c) -> In f fs -> af_id f = i -> add_to_fragment u m f = Ok g).
Definition empty_cache {B} : cache B := {| ca_batches := []; ca_frags := [] |}.
Lemma empty_cache_of : forall {A B} u (m : list A -> option (list B)) fs, cache_of u m fs empty_cache.
Proof. intros. split; intros; destruct H. Qed.
Lemma get_batch_in : forall {B} (c : cache B) i k x, get_batch c i k = Some x -> In ((i, k), x) (ca_batches c).
Proof.
  intros B c i k x H. unfold get_batch in H. destruct (find _ (ca_batches c)) as [[[j l] y]|] eqn:F; [|discriminate]. cbn in H. injection H as ->.
  apply find_some in F as [J E]. cbn in E. apply andb_true_iff in E as [E1 E2]. apply N.eqb_eq in E1. apply Nat.eqb_eq in E2. subst. exact J.
Qed.
Lemma get_fragment_in : forall {B} (c : cache B) i g, get_fragment c i = Some g -> In (i, g) (ca_frags c).
Proof.
  intros B c i g H. unfold get_fragment in H. destruct (find _ (ca_frags c)) as [[j y]|] eqn:F; [|discriminate]. cbn in H. injection H as ->.
  apply find_some in F as [J E]. cbn in E. apply N.eqb_eq in E. subst. exact J.
Qed.
Lemma insert_batch_of : forall {A B} u (m : list A -> option (list B)) fs c f k b x, NoDup (map af_id fs) -> In f fs ->
  nth_error (input_batches u f) k = Some b -> m b = Some x -> cache_of u m fs c -> cache_of u m fs (insert_batch c (af_id f) k x).
Proof.
  intros A B u m fs c f k b x D J K M [C1 C2]. split; [|exact C2]. intros i k' x' f' b' H J' E K'. cbn [insert_batch ca_batches] in H.
  apply in_app_or in H as [H|[H|[]]]; [eapply C1; eassumption|]. injection H as <- <- <-.
  assert (f' = f) as ->.
  { clear -D J J' E. induction fs as [|a l IH]; [destruct J|]. inversion D as [|? ? N D']; subst. destruct J as [->|J], J' as [->|J']; auto.
    - exfalso. apply N. rewrite <- E. apply in_map. exact J'.
    - exfalso. apply N. rewrite E. apply in_map. exact J. }
  congruence.
Qed.
Lemma insert_fragment_of : forall {A B} u (m : list A -> option (list B)) fs c f g, NoDup (map af_id fs) -> In f fs ->
  add_to_fragment u m f = Ok g -> uf_id g = af_id f -> cache_of u m fs c -> cache_of u m fs (insert_fragment c g).
Proof.
  intros A B u m fs c f g D J M I [C1 C2]. split.
  - intros i k x f' b H. cbn in H. apply filter_In in H as [H _]. eapply C1; eassumption.
  - intros i g' f' H J' E. cbn in H. apply in_app_or in H as [H|[H|[]]]; [eapply C2; eassumption|]. injection H as <- <-.
    assert (f' = f) as ->; [|exact M].
    rewrite I in E. clear -D J J' E. induction fs as [|a l IH]; [destruct J|]. inversion D as [|? ? N D']; subst. destruct J as [->|J], J' as [->|J']; auto.
    + exfalso. apply N. rewrite <- E. apply in_map. exact J'.
    + exfalso. apply N. rewrite E. apply in_map. exact J.
Qed.
Lemma cached_batches_spec : forall {A B} u (m : list A -> option (list B)) fs f, NoDup (map af_id fs) -> In f fs ->
  forall bs k fuel c res n c', (forall j b, nth_error bs j = Some b -> nth_error (input_batches u f) (k + j) = Some b) -> cache_of u m fs c ->
  cached_batches m (af_id f) k bs fuel c = (res, n, c') ->
  cache_of u m fs c' /\ match res with Done new => map_batches m bs = Ok new | Failed => map_batches m bs = Err | Stopped => fuel < length bs end.
Proof.
  intros A B u m fs f D J. induction bs as [|b t IH]; intros k fuel c res n c' Hb C; cbn [cached_batches].
  - intros [= <- <- <-]. auto.
  - assert (Ht : forall j b', nth_error t j = Some b' -> nth_error (input_batches u f) (S k + j) = Some b').
    { intros j b' H. replace (S k + j) with (k + S j) by lia. apply Hb. exact H. }
    assert (H0 : nth_error (input_batches u f) k = Some b) by (replace k with (k + 0) by lia; apply Hb; reflexivity).
    destruct (get_batch c (af_id f) k) as [x|] eqn:G.
    + apply get_batch_in in G. assert (M : m b = Some x) by (eapply (proj1 C); eauto). cbn [map_batches]. rewrite M.
      destruct (length x =? length b); [|intros [= <- <- <-]; auto].
      destruct (cached_batches m (af_id f) (S k) t fuel c) as [[r n1] c1] eqn:R. destruct (IH _ _ _ _ _ _ Ht C R) as [C' S].
      destruct r as [new| |]; intros [= <- <- <-]; (split; [exact C'|]); [rewrite S; reflexivity|rewrite S; reflexivity|cbn; lia].
    + destruct fuel as [|fuel]; [intros [= <- <- <-]; split; [exact C|cbn; lia]|]. cbn [map_batches]. destruct (m b) as [x|] eqn:M; [|intros [= <- <- <-]; auto].
      assert (C1 : cache_of u m fs (insert_batch c (af_id f) k x)) by (eapply insert_batch_of; eauto).
      destruct (length x =? length b); [|intros [= <- <- <-]; auto].
      destruct (cached_batches m (af_id f) (S k) t fuel (insert_batch c (af_id f) k x)) as [[r n1] c1] eqn:R. destruct (IH _ _ _ _ _ _ Ht C1 R) as [C' S].
      destruct r as [new| |]; intros [= <- <- <-]; (split; [exact C'|]); [rewrite S; reflexivity|rewrite S; reflexivity|cbn; lia].
Qed.
(* a run with a cache made from the same fragments, stopped anywhere *)
Theorem cached_spec : forall {A B} u (m : list A -> option (list B)) fs, NoDup (map af_id fs) ->
  forall fuel c res n c', cache_of u m fs c -> cached_impl u m fs fuel c = (res, n, c') ->
  cache_of u m fs c' /\ match res with Done gs => add_columns_impl u m fs = Ok gs | Failed => forall gs, add_columns_impl u m fs <> Ok gs | Stopped => True end.
Proof.
  intros A B u m fs D. assert (S : forall l, incl l fs -> forall fuel c res n c', cache_of u m fs c -> cached_impl u m l fuel c = (res, n, c') ->
    cache_of u m fs c' /\ match res with Done gs => add_columns_impl u m l = Ok gs | Failed => forall gs, add_columns_impl u m l <> Ok gs | Stopped => True end).
  2:{ apply S. apply incl_refl. }
  induction l as [|f t IH]; intros I fuel c res n c' C; cbn [cached_impl].
  - intros [= <- <- <-]. auto.
  - assert (J : In f fs) by (apply I; left; reflexivity). assert (It : incl t fs) by (intros y Y; apply I; right; exact Y). cbn [add_columns_impl].
    assert (Rest : forall g n1 c1, add_to_fragment u m f = Ok g -> cache_of u m fs c1 ->
      match cached_impl u m t n1 c1 with (Done r, n', c2) => (Done (g :: r), n', c2) | e => e end = (res, n, c') ->
      cache_of u m fs c' /\ match res with Done gs => obnd (add_to_fragment u m f) (fun g => obnd (add_columns_impl u m t) (fun r => Ok (g :: r))) = Ok gs
        | Failed => forall gs, obnd (add_to_fragment u m f) (fun g => obnd (add_columns_impl u m t) (fun r => Ok (g :: r))) <> Ok gs | Stopped => True end).
    { intros g n1 c1 G C1. rewrite G. cbn [obnd]. destruct (cached_impl u m t n1 c1) as [[r n2] c2] eqn:R. destruct (IH It _ _ _ _ _ C1 R) as [C2 S2].
      destruct r as [r| |]; intros [= <- <- <-]; (split; [exact C2|]); [rewrite S2; reflexivity| |exact Logic.I].
      intros gs. destruct (add_columns_impl u m t) as [r'| |]; try discriminate. exfalso. exact (S2 r' eq_refl). }
    destruct (get_fragment c (af_id f)) as [g|] eqn:G.
    + apply get_fragment_in in G. apply Rest; [eapply (proj2 C); eauto|exact C].
    + destruct (cached_batches m (af_id f) 0 (input_batches u f) fuel c) as [[one n1] c1] eqn:Q.
      assert (HB : forall j b, nth_error (input_batches u f) j = Some b -> nth_error (input_batches u f) (0 + j) = Some b) by (intros j b X; exact X).
      destruct (cached_batches_spec u m fs f D J _ _ _ _ _ _ _ HB C Q) as [C1 S1].
      destruct one as [new| |].
      * destruct (write_back u f new) as [g| |] eqn:WB.
        -- assert (AF : add_to_fragment u m f = Ok g) by (unfold add_to_fragment; rewrite S1; exact WB).
           apply Rest; [exact AF|]. eapply insert_fragment_of; eauto. unfold write_back in WB. destruct (run_updater _ new); [|discriminate]. injection WB as <-. reflexivity.
        -- intros [= <- <- <-]. split; [exact C1|]. intros gs. unfold add_to_fragment. rewrite S1. cbn [obnd]. rewrite WB. discriminate.
        -- destruct (write_back_no_panic u f new WB).
      * intros [= <- <- <-]. split; [exact C1|]. intros gs. unfold add_to_fragment. rewrite S1. discriminate.
      * intros [= <- <- <-]. auto.
Qed.
(* any number of interrupted attempts with the same checkpoint *)
Fixpoint attempts {A B} (u : usize) (m : list A -> option (list B)) (fs : list (afrag A)) (fuels : list nat) (c : cache B) : cache B :=
  match fuels with [] => c | n :: t => attempts u m fs t (snd (cached_impl u m fs n c)) end.
Theorem resumed_same : forall {A B} u (m : list A -> option (list B)) fs fuels fuel gs n c', NoDup (map af_id fs) ->
  cached_impl u m fs fuel (attempts u m fs fuels empty_cache) = (Done gs, n, c') -> add_columns_impl u m fs = Ok gs.
Proof.
  intros A B u m fs fuels fuel gs n c' D H.
  assert (C : forall fuels c, cache_of u m fs c -> cache_of u m fs (attempts u m fs fuels c)).
  { induction fuels0 as [|k t IH]; intros c X; cbn [attempts]; [exact X|]. apply IH. destruct (cached_impl u m fs k c) as [[r k'] c2] eqn:R.
    exact (proj1 (cached_spec u m fs D _ _ _ _ _ X R)). }
  exact (proj2 (cached_spec u m fs D _ _ _ _ _ (C fuels _ (empty_cache_of u m fs)) H)).
Qed.

(* ---- examples and refutations ---- *)
Definition exf (i : N) (p : nat) (d : dv) : afrag nat := {| af_id := i; af_phys := p; af_del := d; af_row := fun o => 100 * N.to_nat i + o |}.
Definition ex_u (n : nat) : usize := {| u_legacy := None; u_size := n |}.
Lemma exf_ok : forall i p d, dv_wf d -> forallb (fun x => (x <? N.of_nat p)%N) (dv_items d) = true -> afrag_ok (exf i p d).
Proof. intros i p d W F. split; [exact W|]. intros x J. rewrite forallb_forall in F. apply N.ltb_lt, F, J. Qed.
Definition ex_frags : list (afrag nat) := [exf 0 5 (DSet [3; 1]%N); exf 2 3 NoDel].
Example ex_added : Forall afrag_ok ex_frags /\
  add_columns_impl (ex_u 2) (rowwise S) ex_frags =
    Ok [{| uf_id := 0; uf_del := DSet [3; 1]%N; uf_col := Some [1; 1; 3; 3; 5] |}; {| uf_id := 2; uf_del := NoDel; uf_col := Some [201; 202; 203] |}] /\
  add_columns_from_stream (ex_u 2) ex_frags [[7]; [8; 9; 10]; [11; 12]] =
    Ok [{| uf_id := 0; uf_del := DSet [3; 1]%N; uf_col := Some [7; 7; 8; 8; 9] |}; {| uf_id := 2; uf_del := NoDel; uf_col := Some [10; 11; 12] |}] /\
  Forall (batches_live (ex_u 2)) ex_frags /\ Forall (first_live 2) ex_frags.
Proof.
  split; [|split; [|split; [|split]]].
  - repeat (apply Forall_cons; [apply exf_ok; [|reflexivity]|]); [|exact Logic.I|apply Forall_nil]. cbn. repeat (constructor; [cbn; intuition discriminate|]). constructor.
  - vm_compute. reflexivity.
  - vm_compute. reflexivity.
  - repeat (apply Forall_cons; [split; [discriminate|vm_compute; repeat (constructor; [discriminate|]); constructor]|]). apply Forall_nil.
  - apply Forall_cons; [|apply Forall_cons; [|apply Forall_nil]]; exists 0; (split; [lia|]); apply live_offs_in; vm_compute; auto.
Qed.
(* the stream has the right number of rows, but a batch of the fragment has no surviving row: the process panics *)
Theorem stream_panic_refuted : exists u (fs : list (afrag nat)) (st : list (list nat)), Forall afrag_ok fs /\ 0 < batch_rows u /\ u_legacy u = None /\
  length (concat st) = total_live fs /\ Forall (fun b => b <> []) st /\ add_columns_from_stream u fs st = Panic.
Proof.
  exists (ex_u 2), [exf 0 4 (DSet [2; 3]%N)], [[7; 8]]. split; [|vm_compute; repeat split; auto; repeat (constructor; [discriminate|]); constructor].
  apply Forall_cons; [|apply Forall_nil]. apply exf_ok; [|reflexivity]. cbn. repeat (constructor; [cbn; intuition discriminate|]). constructor.
Qed.
(* an empty batch at the end of the stream is taken for more values *)
Theorem stream_trailing_refuted : exists u (fs : list (afrag nat)) (st : list (list nat)), Forall afrag_ok fs /\ 0 < batch_rows u /\ u_legacy u = None /\
  length (concat st) = total_live fs /\ Forall (batches_live u) fs /\ add_columns_from_stream u fs st = Err.
Proof.
  exists (ex_u 2), [exf 0 2 NoDel], [[7; 8]; []]. split; [|split; [|split; [|split; [|split]]]]; try (vm_compute; auto; fail).
  - apply Forall_cons; [|apply Forall_nil]. apply exf_ok; [exact Logic.I|reflexivity].
  - apply Forall_cons; [|apply Forall_nil]. split; [discriminate|]. vm_compute. constructor; [discriminate|constructor].
Qed.
(* nothing survives in the first batch: an expression cannot be added *)
Theorem first_batch_refuted : exists u (f : afrag nat), afrag_ok f /\ 0 < batch_rows u /\ u_legacy u = None /\ live_offs f <> [] /\ add_columns_impl u (rowwise S) [f] = Err.
Proof.
  exists (ex_u 2), (exf 0 4 (DSet [0; 1]%N)). split; [|vm_compute; repeat split; auto; discriminate]. apply exf_ok; [|reflexivity].
  cbn. repeat (constructor; [cbn; intuition discriminate|]). constructor.
Qed.
(* rows deleted between two attempts with one checkpoint are back in the fragment that is committed *)
Theorem resumed_deletes_refuted : exists u (m : list nat -> option (list nat)) (fs fs' : list (afrag nat)) fuel fuel' gs n c',
  Forall afrag_ok fs /\ Forall afrag_ok fs' /\ NoDup (map af_id fs) /\ NoDup (map af_id fs') /\ Forall2 (fun f f' => af_id f = af_id f' /\ af_phys f = af_phys f' /\ af_row f = af_row f') fs fs' /\
  cached_impl u m fs' fuel' (snd (cached_impl u m fs fuel empty_cache)) = (Done gs, n, c') /\
  exists f g, nth_error fs' 0 = Some f /\ nth_error gs 0 = Some g /\ dv_has (af_del f) 1 /\ ~ dv_has (uf_del g) 1.
Proof.
  exists (ex_u 4), (rowwise S), [exf 0 3 NoDel; exf 1 2 NoDel], [exf 0 3 (DSet [1]%N); exf 1 2 NoDel], 1, 9.
  do 3 eexists. split; [|split; [|split; [|split; [|split; [|split]]]]].
  - repeat (apply Forall_cons; [apply exf_ok; [exact Logic.I|reflexivity]|]). apply Forall_nil.
  - apply Forall_cons; [apply exf_ok; [|reflexivity]|apply Forall_cons; [apply exf_ok; [exact Logic.I|reflexivity]|apply Forall_nil]].
    cbn. constructor; [intros []|constructor].
  - cbn. repeat (constructor; [cbn; intuition discriminate|]). constructor.
  - cbn. repeat (constructor; [cbn; intuition discriminate|]). constructor.
  - repeat (constructor; [repeat split|]). constructor.
  - vm_compute. reflexivity.
  - do 2 eexists. split; [reflexivity|]. split; [reflexivity|]. split; [left; reflexivity|intros []].
Qed.
(* interrupted twice, then finished *)
Example ex_resumed : exists c', cached_impl (ex_u 2) (rowwise S) ex_frags 1 (attempts (ex_u 2) (rowwise S) ex_frags [1; 3] empty_cache) =
  (Done [{| uf_id := 0; uf_del := DSet [3; 1]%N; uf_col := Some [1; 1; 3; 3; 5] |}; {| uf_id := 2; uf_del := NoDel; uf_col := Some [201; 202; 203] |}], 0, c').
Proof. eexists. vm_compute. reflexivity. Qed.
