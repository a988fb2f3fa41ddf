(* Where FileWriter puts what it is given: every page, global buffer and column is found at the place recorded for it. *)
From Coq Require Import List Arith NArith ZArith Bool Lia ZifyBool ZifyN ZifyNat.
From Verif Require Import Lib PageModel SerdeModel SerdeProofs BitsModel File2Model File2Proofs.
From Verif Require BlobModel BlobProofs.
Import ListNotations.
Local Open Scope nat_scope.

(* ---- the specification ---- *)
Definition holds (file : list N) (q : N * N) (b : list N) : Prop := bytes_of file q = Some b.
Definition stored (file : list N) (p : page) (e : epage) : Prop :=
  pg_enc p = ep_enc e /\ pg_rows p = ep_rows e /\ pg_prio p = ep_prio e /\ length (pg_offs p) = length (ep_bufs e) /\ length (pg_sizes p) = length (ep_bufs e) /\
  Forall2 (holds file) (combine (pg_offs p) (pg_sizes p)) (ep_bufs e).
(* the pages of column [k], in the order in which they were handed over *)
Definition pages_for (k : nat) (ps : list epage) : list epage := filter (fun e => ep_col e =? k) ps.
Definition op_pages (os : list op) : list epage := flat_map (fun o => match o with OPage p => [p] | _ => [] end) os.
Definition op_globals (os : list op) : list (list N) := flat_map (fun o => match o with OGlobal b => [b] | _ => [] end) os.
Definition all_cols (fs : list fwriter) : list fcol := flat_map fw_cols fs.
Definition all_pages (os : list op) (fs : list fwriter) : list epage := op_pages os ++ flat_map fc_pages (all_cols fs).
(* all column buffers but the last are whole multiples of the alignment *)
Fixpoint tight (bufs : list (list N)) : Prop := match bufs with [] => True | [_] => True | b :: t => length b mod 64 = 0 /\ tight t end.

(* ---- buffers ---- *)
Definition padding (b : list N) : list N := repeat 72%N (BlobModel.pad (length b) BlobModel.PAGE_BUFFER_ALIGNMENT).
Lemma put_buffer_eq : forall out b, put_buffer out b = out ++ b ++ padding b.
Proof. reflexivity. Qed.
Lemma pad_mod : forall n, (n + BlobModel.pad n BlobModel.PAGE_BUFFER_ALIGNMENT) mod 64 = 0 /\ (n mod 64 = 0 -> BlobModel.pad n BlobModel.PAGE_BUFFER_ALIGNMENT = 0).
Proof.
  intros n. unfold BlobModel.pad, BlobModel.PAGE_BUFFER_ALIGNMENT, pad_bytes_to. change (64 - 1)%N with (N.ones 6). rewrite !N.land_ones. change (2 ^ 6)%N with 64%N.
  split; zify; Z.to_euclidean_division_equations; lia.
Qed.
Lemma holds_ext : forall out x q b, holds out q b -> holds (out ++ x) q b.
Proof. intros out x q b H. unfold holds, bytes_of in *. now apply sub_ext. Qed.
Lemma holds_here : forall out b x, holds (out ++ b ++ x) (pos_of out, N.of_nat (length b)) b.
Proof. intros out b x. unfold holds, bytes_of. cbn [fst snd]. now apply sub_mid. Qed.
Lemma Forall2_mono {A B} : forall (P Q : A -> B -> Prop) l m, (forall x y, P x y -> Q x y) -> Forall2 P l m -> Forall2 Q l m.
Proof. intros P Q l m H F. induction F; constructor; auto. Qed.
Lemma stored_ext : forall out x p e, stored out p e -> stored (out ++ x) p e.
Proof. intros out x p e (A & B & C & D & E & F). repeat (split; [assumption|]). eapply Forall2_mono; [|exact F]. intros; now apply holds_ext. Qed.
Lemma put_buffers_ok : forall bufs out o s out', put_buffers out bufs = (o, s, out') ->
  (exists x, out' = out ++ x) /\ length o = length bufs /\ length s = length bufs /\ Forall2 (holds out') (combine o s) bufs.
Proof.
  induction bufs as [|b bufs IH]; intros out o s out' H; cbn in H.
  - injection H as <- <- <-. split; [exists []; now rewrite app_nil_r|]. repeat split; constructor.
  - destruct (put_buffers (put_buffer out b) bufs) as [[o1 s1] out1] eqn:E. injection H as <- <- <-. destruct (IH _ _ _ _ E) as ((x & ->) & L1 & L2 & F). rewrite put_buffer_eq, <- !app_assoc in *.
    split; [eexists; reflexivity|]. cbn [length combine]. split; [now rewrite L1|]. split; [now rewrite L2|]. constructor; [apply holds_here|exact F].
Qed.
Lemma column_buffers_ok : forall bufs out o s out', put_column_buffers (pos_of out) out bufs = (o, s, out') ->
  (exists x, out' = out ++ x) /\ length o = length bufs /\ s = map (fun b => N.of_nat (length b)) bufs /\ (tight bufs -> Forall2 (holds out') (combine o s) bufs).
Proof.
  assert (G : forall bufs pos out o s out', put_column_buffers pos out bufs = (o, s, out') ->
    (exists x, out' = out ++ x) /\ length o = length bufs /\ s = map (fun b => N.of_nat (length b)) bufs /\ (pos = pos_of out -> tight bufs -> Forall2 (holds out') (combine o s) bufs)).
  { induction bufs as [|b bufs IH]; intros pos out o s out' H; cbn in H.
    - injection H as <- <- <-. split; [exists []; now rewrite app_nil_r|]. repeat split; constructor.
    - destruct (put_column_buffers (pos + N.of_nat (length b)) (put_buffer out b) bufs) as [[o1 s1] out1] eqn:E. injection H as <- <- <-. destruct (IH _ _ _ _ _ E) as ((x & ->) & L1 & L2 & F). rewrite put_buffer_eq, <- !app_assoc in *.
      split; [eexists; reflexivity|]. cbn [length combine map]. split; [now rewrite L1|]. split; [now rewrite L2|]. intros -> T. constructor; [apply holds_here|].
      destruct bufs as [|b2 bufs]; [cbn in L1; destruct o1; [constructor|discriminate L1]|]. destruct T as [T0 T]. apply F; [|exact T]. unfold pos_of, padding. rewrite !app_length, (proj2 (pad_mod (length b)) T0). cbn [repeat length]. lia. }
  intros bufs out o s out' H. destruct (G _ _ _ _ _ _ H) as (A & B & C & D). auto.
Qed.
Lemma upd_ok {A} : forall k (f : A -> A) l l', upd k f l = Some l' -> length l' = length l /\ forall j y, nth_error l' j = Some y -> exists x, nth_error l j = Some x /\ y = if j =? k then f x else x.
Proof.
  induction k as [|k IH]; intros f [|x l] l' H; try discriminate; cbn in H.
  - injection H as <-. split; [reflexivity|]. intros [|j] y Hj; cbn in *; [injection Hj as <-; eauto|eauto].
  - destruct (upd k f l) as [l1|] eqn:E; [|discriminate H]. injection H as <-. destruct (IH _ _ _ E) as [L P]. split; [cbn; now rewrite L|]. intros [|j] y Hj; cbn in *; [injection Hj as <-; eauto|apply P; exact Hj].
Qed.

(* ---- the state of the writer ---- *)
Definition col_inv (out : list N) (k : nat) (ps : list epage) (cs : list fcol) (c : cmeta) : Prop :=
  Forall2 (stored out) (cm_pages c) (pages_for k ps) /\
  match nth_error cs k with
  | Some f => cm_enc c = Some (fc_enc f) /\ length (cm_offs c) = length (fc_bufs f) /\ cm_sizes c = map (fun b => N.of_nat (length b)) (fc_bufs f) /\ (tight (fc_bufs f) -> Forall2 (holds out) (combine (cm_offs c) (cm_sizes c)) (fc_bufs f))
  | None => cm_enc c = None /\ cm_offs c = [] /\ cm_sizes c = []
  end.
Definition inv (w : wr) (n : nat) (ps : list epage) (gs : list (list N)) (cs : list fcol) : Prop :=
  length (w_cols w) = n /\ (forall k c, nth_error (w_cols w) k = Some c -> col_inv (w_out w) k ps cs c) /\ Forall2 (holds (w_out w)) (w_glob w) gs.
Lemma col_ext : forall out x k ps cs c, col_inv out k ps cs c -> col_inv (out ++ x) k ps cs c.
Proof.
  intros out x k ps cs c [A B]. split; [eapply Forall2_mono; [|exact A]; intros; now apply stored_ext|]. destruct (nth_error cs k); [|exact B]. destruct B as (B1 & B2 & B3 & B4). repeat (split; [assumption|]). intros T. eapply Forall2_mono; [|exact (B4 T)]. intros; now apply holds_ext.
Qed.
Lemma pages_for_app : forall k ps qs, pages_for k (ps ++ qs) = pages_for k ps ++ pages_for k qs.
Proof. intros k ps qs. unfold pages_for. induction ps as [|p ps IH]; [reflexivity|]. cbn. destruct (ep_col p =? k); cbn; now rewrite IH. Qed.
Lemma write_page_inv : forall w p w' n ps gs cs, inv w n ps gs cs -> write_page w p = Some w' -> inv w' n (ps ++ [p]) gs cs.
Proof.
  intros w p w' n ps gs cs (L & C & G) H. unfold write_page in H. destruct (put_buffers (w_out w) (ep_bufs p)) as [[o s] out] eqn:E. destruct (put_buffers_ok _ _ _ _ _ E) as ((x & ->) & L1 & L2 & F).
  match type of H with omap _ ?u = _ => destruct u as [cols|] eqn:U end; [|discriminate H]. injection H as <-. destruct (upd_ok _ _ _ _ U) as [LU PU]. split; [cbn; lia|]. cbn [w_out w_cols w_glob]. split.
  - intros k c Hc. destruct (PU k c Hc) as (c0 & H0 & ->). specialize (C k c0 H0). apply (col_ext _ x) in C. rewrite (Nat.eqb_sym k). unfold col_inv in *. rewrite pages_for_app. cbn [pages_for filter]. destruct (ep_col p =? k) eqn:K.
    + destruct C as [C1 C2]. split; [|exact C2]. cbn [add_page cm_pages]. apply Forall2_app; [exact C1|]. constructor; [|constructor]. repeat (split; [reflexivity || assumption|]). exact F.
    + rewrite app_nil_r. exact C.
  - eapply Forall2_mono; [|exact G]. intros; now apply holds_ext.
Qed.
Lemma write_pages_inv : forall qs w w' n ps gs cs, inv w n ps gs cs -> write_pages w qs = Some w' -> inv w' n (ps ++ qs) gs cs.
Proof.
  induction qs as [|q qs IH]; intros w w' n ps gs cs I H; cbn in H; [injection H as <-; now rewrite app_nil_r|]. destruct (write_page w q) as [w1|] eqn:E; [|discriminate H]. cbn [obind] in H.
  replace (ps ++ q :: qs) with ((ps ++ [q]) ++ qs) by now rewrite <- app_assoc. eapply IH; [|exact H]. eapply write_page_inv; eauto.
Qed.
Lemma fold_put : forall bufs out, exists x, fold_left put_buffer bufs out = out ++ x.
Proof. induction bufs as [|b bufs IH]; intros out; cbn [fold_left]; [exists []; now rewrite app_nil_r|]. destruct (IH (put_buffer out b)) as [x ->]. rewrite put_buffer_eq, <- !app_assoc. eexists. reflexivity. Qed.
Lemma ext_inv : forall w x n ps gs cs, inv w n ps gs cs -> inv {| w_out := w_out w ++ x; w_cols := w_cols w; w_glob := w_glob w |} n ps gs cs.
Proof. intros w x n ps gs cs (L & C & G). split; [exact L|]. cbn [w_out w_cols w_glob]. split; [intros k c Hc; now apply col_ext, C|]. eapply Forall2_mono; [|exact G]. intros; now apply holds_ext. Qed.
Lemma steps_inv : forall os w w' n ps gs cs, inv w n ps gs cs -> steps w os = Some w' -> inv w' n (ps ++ op_pages os) (gs ++ op_globals os) cs.
Proof.
  induction os as [|o os IH]; intros w w' n ps gs cs I H; cbn [steps] in H; [injection H as <-; cbn; now rewrite !app_nil_r|]. destruct (step w o) as [w1|] eqn:E; [|discriminate H]. cbn [obind] in H. unfold op_pages, op_globals. cbn [flat_map]. rewrite !app_assoc. eapply IH; [|exact H].
  destruct o as [bufs|p|b]; cbn [step] in E.
  - injection E as <-. rewrite !app_nil_r. destruct (fold_put bufs (w_out w)) as [x ->]. now apply ext_inv.
  - rewrite app_nil_r. eapply write_page_inv; eauto.
  - injection E as <-. rewrite app_nil_r. rewrite put_buffer_eq. destruct (ext_inv w (b ++ padding b) n ps gs cs I) as (L & C & G). split; [exact L|]. split; [exact C|]. cbn [w_out w_glob] in *. apply Forall2_app; [exact G|]. constructor; [apply holds_here|constructor].
Qed.
Lemma finish_column_inv : forall idx w c w' n ps gs cs, inv w n ps gs cs -> length cs = idx -> finish_column idx w c = Some w' -> inv w' n (ps ++ fc_pages c) gs (cs ++ [c]).
Proof.
  intros idx w c w' n ps gs cs I LC H. unfold finish_column in H. destruct (write_pages w (fc_pages c)) as [w1|] eqn:E; [|discriminate H]. cbn [obind] in H. apply (write_pages_inv _ _ _ _ _ _ _ I) in E. destruct E as (L & C & G).
  destruct (put_column_buffers (pos_of (w_out w1)) (w_out w1) (fc_bufs c)) as [[o s] out] eqn:B. destruct (column_buffers_ok _ _ _ _ _ B) as ((x & ->) & B1 & B2 & B3).
  match type of H with omap _ ?u = _ => destruct u as [cols|] eqn:U end; [|discriminate H]. injection H as <-. destruct (upd_ok _ _ _ _ U) as [LU PU]. split; [cbn; lia|]. cbn [w_out w_cols w_glob]. split.
  - intros k m Hm. destruct (PU k m Hm) as (m0 & H0 & ->). specialize (C k m0 H0). apply (col_ext _ x) in C. unfold col_inv in *. destruct (k =? idx) eqn:K.
    + apply Nat.eqb_eq in K. subst k. rewrite nth_error_app2 by lia. rewrite LC, Nat.sub_diag. cbn [nth_error]. destruct C as [C1 C2]. rewrite (proj2 (nth_error_None cs idx)) in C2 by lia. destruct C2 as (_ & C2 & C3). cbn [cm_pages cm_offs cm_sizes cm_enc]. rewrite C2, C3. cbn [app].
      split; [exact C1|]. repeat (split; [reflexivity || assumption|]). exact B3.
    + apply Nat.eqb_neq in K. replace (nth_error (cs ++ [c]) k) with (nth_error cs k); [exact C|]. destruct (lt_dec k (length cs)) as [Q|Q]; [now rewrite nth_error_app1|]. rewrite nth_error_app2 by lia. destruct (k - length cs) as [|z] eqn:Z; [lia|]. cbn [nth_error].
      rewrite (proj2 (nth_error_None cs k)) by lia. now destruct z.
  - eapply Forall2_mono; [|exact G]. intros; now apply holds_ext.
Qed.
Lemma finish_columns_inv : forall fcs idx w i w' n ps gs cs, inv w n ps gs cs -> length cs = idx -> finish_columns idx w fcs = Some (i, w') -> inv w' n (ps ++ flat_map fc_pages fcs) gs (cs ++ fcs) /\ i = length (cs ++ fcs).
Proof.
  induction fcs as [|c fcs IH]; intros idx w i w' n ps gs cs I L H; cbn [finish_columns] in H; [injection H as <- <-; cbn; rewrite !app_nil_r; auto|]. destruct (finish_column idx w c) as [w1|] eqn:E; [|discriminate H]. cbn [obind] in H. cbn [flat_map].
  replace (cs ++ c :: fcs) with ((cs ++ [c]) ++ fcs) by now rewrite <- app_assoc. rewrite app_assoc. apply (IH (S idx) w1); [eapply finish_column_inv; eauto|rewrite app_length; cbn; lia|exact H].
Qed.
Lemma finish_writers_inv : forall fs idx w w' n ps gs cs, inv w n ps gs cs -> length cs = idx -> finish_writers idx w fs = Some w' -> inv w' n (ps ++ flat_map fc_pages (all_cols fs)) gs (cs ++ all_cols fs) /\ length (cs ++ all_cols fs) = n.
Proof.
  induction fs as [|f fs IH]; intros idx w w' n ps gs cs I L H; cbn [finish_writers] in H.
  - destruct (idx =? length (w_cols w)) eqn:E; [|discriminate H]. injection H as <-. cbn. rewrite !app_nil_r. split; [exact I|]. destruct I as [I _]. lia.
  - match type of H with obind ?u _ = _ => destruct u as [[i w1]|] eqn:E end; [|discriminate H]. cbn [obind fst snd] in H. destruct (finish_columns_inv _ _ _ _ _ _ _ _ _ (ext_inv w (concat (fw_external f)) n ps gs cs I) L E) as [I1 L1].
    unfold all_cols in *. cbn [flat_map]. rewrite flat_map_app, !app_assoc. subst i. eapply IH; eauto.
Qed.
Lemma initial_inv : forall n, inv {| w_out := []; w_cols := repeat initial_column n; w_glob := [] |} n [] [] [].
Proof. intros n. split; [apply repeat_length|]. split; [|constructor]. cbn [w_cols w_out]. intros k c H. apply nth_error_In, repeat_spec in H. subst c. split; [constructor|]. destruct k; cbn; auto. Qed.

(* ---- alignment ---- *)
Definition al (n : N) : Prop := (n mod 64 = 0)%N.
Definition al_state (w : wr) : Prop := al (pos_of (w_out w)) /\ Forall (fun c => Forall (fun p => Forall al (pg_offs p)) (cm_pages c)) (w_cols w) /\ Forall (fun q => al (fst q)) (w_glob w).
Lemma put_al : forall out b, al (pos_of out) -> al (pos_of (put_buffer out b)).
Proof.
  intros out b H. unfold al, pos_of in *. rewrite put_buffer_eq, !app_length. unfold padding. rewrite repeat_length. destruct (pad_mod (length b)) as [P _].
  set (q := length b + BlobModel.pad (length b) BlobModel.PAGE_BUFFER_ALIGNMENT) in *. zify; Z.to_euclidean_division_equations; lia.
Qed.
Lemma put_buffers_al : forall bufs out o s out', al (pos_of out) -> put_buffers out bufs = (o, s, out') -> al (pos_of out') /\ Forall al o.
Proof.
  induction bufs as [|b bufs IH]; intros out o s out' A H; cbn in H; [injection H as <- <- <-; auto|]. destruct (put_buffers (put_buffer out b) bufs) as [[o1 s1] out1] eqn:E. injection H as <- <- <-.
  destruct (IH _ _ _ _ (put_al out b A) E) as [A1 A2]. auto.
Qed.
Lemma column_buffers_al : forall bufs pos out o s out', al (pos_of out) -> put_column_buffers pos out bufs = (o, s, out') -> al (pos_of out').
Proof.
  induction bufs as [|b bufs IH]; intros pos out o s out' A H; cbn in H; [injection H as <- <- <-; auto|]. destruct (put_column_buffers (pos + N.of_nat (length b)) (put_buffer out b) bufs) as [[o1 s1] out1] eqn:E. injection H as <- <- <-. eapply IH; [|exact E]. now apply put_al.
Qed.
Lemma upd_Forall {A} : forall (P : A -> Prop) k f l l', upd k f l = Some l' -> Forall P l -> (forall x, P x -> P (f x)) -> Forall P l'.
Proof.
  induction k as [|k IH]; intros f [|x l] l' H F Q; try discriminate; cbn in H; apply Forall_cons_iff in F as [F0 F].
  - injection H as <-. auto.
  - destruct (upd k f l) as [l1|] eqn:E; [|discriminate H]. injection H as <-. constructor; [exact F0|]. eapply IH; eauto.
Qed.
Lemma write_page_al : forall w p w', al_state w -> write_page w p = Some w' -> al_state w'.
Proof.
  intros w p w' (A & B & C) H. unfold write_page in H. destruct (put_buffers (w_out w) (ep_bufs p)) as [[o s] out] eqn:E. destruct (put_buffers_al _ _ _ _ _ A E) as [A1 A2].
  match type of H with omap _ ?u = _ => destruct u as [cols|] eqn:U end; [|discriminate H]. injection H as <-. split; [exact A1|]. split; [|exact C]. cbn [w_cols]. eapply upd_Forall; [exact U|exact B|]. intros c Hc. cbn [add_page cm_pages]. apply Forall_app. split; [exact Hc|]. constructor; [exact A2|constructor].
Qed.
Lemma write_pages_al : forall qs w w', al_state w -> write_pages w qs = Some w' -> al_state w'.
Proof. induction qs as [|q qs IH]; intros w w' A H; cbn in H; [now injection H as <-|]. destruct (write_page w q) as [w1|] eqn:E; [|discriminate H]. cbn [obind] in H. eapply IH; [|exact H]. eapply write_page_al; eauto. Qed.
Lemma fold_al : forall bufs out, al (pos_of out) -> al (pos_of (fold_left put_buffer bufs out)).
Proof. induction bufs as [|b bufs IH]; intros out A; [exact A|]. cbn [fold_left]. apply IH. now apply put_al. Qed.
Lemma steps_al : forall os w w', al_state w -> steps w os = Some w' -> al_state w'.
Proof.
  induction os as [|o os IH]; intros w w' A H; cbn [steps] in H; [now injection H as <-|]. destruct (step w o) as [w1|] eqn:E; [|discriminate H]. cbn [obind] in H. eapply IH; [|exact H]. destruct o as [bufs|p|b]; cbn [step] in E.
  - injection E as <-. destruct A as (A & B & C). split; [now apply fold_al|]. split; assumption.
  - eapply write_page_al; eauto.
  - injection E as <-. destruct A as (A & B & C). split; [now apply put_al|]. split; [exact B|]. cbn [w_glob]. apply Forall_app. split; [exact C|]. constructor; [exact A|constructor].
Qed.
Lemma finish_column_al : forall idx w c w', al_state w -> finish_column idx w c = Some w' -> al_state w'.
Proof.
  intros idx w c w' A H. unfold finish_column in H. destruct (write_pages w (fc_pages c)) as [w1|] eqn:E; [|discriminate H]. cbn [obind] in H. apply (write_pages_al _ _ _ A) in E. destruct E as (A1 & B & C).
  destruct (put_column_buffers (pos_of (w_out w1)) (w_out w1) (fc_bufs c)) as [[o s] out] eqn:P. apply (column_buffers_al _ _ _ _ _ _ A1) in P.
  match type of H with omap _ ?u = _ => destruct u as [cols|] eqn:U end; [|discriminate H]. injection H as <-. split; [exact P|]. split; [|exact C]. cbn [w_cols]. eapply upd_Forall; [exact U|exact B|]. intros m Hm. exact Hm.
Qed.
Lemma finish_columns_al : forall fcs idx w i w', al_state w -> finish_columns idx w fcs = Some (i, w') -> al_state w'.
Proof. induction fcs as [|c fcs IH]; intros idx w i w' A H; cbn [finish_columns] in H; [now injection H as <- <-|]. destruct (finish_column idx w c) as [w1|] eqn:E; [|discriminate H]. cbn [obind] in H. eapply IH; [|exact H]. eapply finish_column_al; eauto. Qed.
Lemma finish_writers_al : forall fs idx w w', al_state w -> Forall (fun f => fw_external f = []) fs -> finish_writers idx w fs = Some w' -> al_state w'.
Proof.
  induction fs as [|f fs IH]; intros idx w w' A F H; cbn [finish_writers] in H.
  - destruct (idx =? length (w_cols w)); [now injection H as <-|discriminate H].
  - apply Forall_cons_iff in F as [F0 F]. rewrite F0 in H. cbn [concat] in H. rewrite app_nil_r in H. match type of H with obind ?u _ = _ => destruct u as [[i w1]|] eqn:E end; [|discriminate H]. cbn [obind fst snd] in H. eapply IH; [|exact F|exact H]. eapply finish_columns_al; [|exact E]. now destruct w.
Qed.
