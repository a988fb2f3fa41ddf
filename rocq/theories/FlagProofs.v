(* C74: versions whose flags this library does not know. *)
From Coq Require Import List Arith NArith ZArith Bool Lia.
From Coq Require Import ZifyBool ZifyN ZifyNat.
From Verif Require Import Lib AMap TreeMapModel SerdeModel TxnModel TxnSpec TxnLemmas TxnIdsProofs TxnFrame TxnRowIds TxnRewrite TxnExamples FlagModel.
Import ListNotations.
Local Open Scope N_scope.

(* every bit set is one of the four this library defines *)
Definition known (flags : N) : Prop := forall b, N.testbit flags b = true -> b < 4.
Lemma known_iff : forall f, known f <-> (f <? FLAG_UNKNOWN) = true.
Proof.
  intros f. unfold FLAG_UNKNOWN. rewrite N.ltb_lt. split.
  - intros K. destruct (N.eq_dec f 0) as [->|NZ]; [lia|]. change 16 with (2 ^ 4). apply N.log2_lt_pow2; [lia|]. apply K. apply N.bit_log2. exact NZ.
  - intros L b T. destruct (N.ltb_spec b 4) as [H|H]; [exact H|]. exfalso. destruct (N.eq_dec f 0) as [->|NZ]; [rewrite N.bits_0 in T; discriminate|]. rewrite N.bits_above_log2 in T; [discriminate|].
    apply N.lt_le_trans with 4; [|exact H]. apply N.log2_lt_pow2; [lia|exact L].
Qed.
(* opening or checking out a version by number: exactly the versions whose reader flags are known *)
Theorem open_refuses_unknown : forall h v, match version_entry h v with
  | None => load_manifest h v = BErr
  | Some e => (known (m_rflags (e_man e)) -> load_manifest h v = BOk (e_man e)) /\ (~ known (m_rflags (e_man e)) -> load_manifest h v = BErr)
  end.
Proof.
  intros h v. unfold load_manifest. destruct (version_entry h v) as [e|]; [|reflexivity]. unfold can_read_dataset. rewrite known_iff. destruct (m_rflags (e_man e) <? FLAG_UNKNOWN); split; intros H; try reflexivity; [contradiction|discriminate].
Qed.
(* the versions a commit is checked against *)
Lemma check_others_spec : forall h t vs, match check_others h t vs with
  | BOk _ => forall v, In v vs -> exists e, version_entry h v = Some e /\ known (m_rflags (e_man e)) /\ conflicts_with (t_op t) (t_op (e_txn e)) = false
  | BErr => exists v, In v vs /\ forall e, version_entry h v = Some e -> ~ known (m_rflags (e_man e)) \/ conflicts_with (t_op t) (t_op (e_txn e)) = true
  | BPanic => False
  end.
Proof.
  intros h t. induction vs as [|v vs IH]; [intros v []|]. cbn [check_others]. unfold read_dataset_transaction_file, load_manifest. destruct (version_entry h v) as [e|] eqn:E; cbn [bbind].
  - destruct (can_read_dataset (m_rflags (e_man e))) eqn:K; cbn [bbind].
    + destruct (conflicts_with (t_op t) (t_op (e_txn e))) eqn:X.
      * exists v. split; [left; reflexivity|]. intros e' E'. rewrite E in E'. injection E' as <-. right. exact X.
      * destruct (check_others h t vs).
        -- intros w [<-|I]; [exists e; repeat split; [exact E|apply known_iff; exact K|exact X]|exact (IH w I)].
        -- destruct IH as [w [I W]]. exists w. split; [right; exact I|exact W].
        -- exact IH.
    + exists v. split; [left; reflexivity|]. intros e' E'. rewrite E in E'. injection E' as <-. left. rewrite known_iff. unfold can_read_dataset in K. congruence.
  - exists v. split; [left; reflexivity|]. intros e' E'. congruence.
Qed.
(* a version with unknown reader flags after the one read stops the commit *)
Theorem commit_refuses_unknown_reader : forall h t file c v e, t_read t < v <= N.of_nat (length h) -> version_entry h v = Some e -> ~ known (m_rflags (e_man e)) -> commit_transaction h t file c = BErr.
Proof.
  intros h t file c v e V E K. unfold commit_transaction. pose proof (check_others_spec h t (nrange (t_read t + 1) (length h - N.to_nat (t_read t)))) as S. destruct (check_others _ _ _); cbn [bbind]; [|reflexivity|contradiction].
  destruct (S v) as (e' & E' & K' & _); [apply nrange_In; lia|]. rewrite E in E'. injection E' as <-. contradiction.
Qed.
(* an insert through a handle on the latest version respects that version's writer flags *)
Theorem insert_at_latest_partial : forall h cur e t file c, last_entry h = Some e -> cur = e_man e -> ~ known (m_wflags (e_man e)) -> insert_commit h cur t file c = BErr.
Proof. intros h cur e t file c L -> K. unfold insert_commit, can_write_dataset. rewrite known_iff in K. destruct (m_wflags (e_man e) <? FLAG_UNKNOWN); [contradiction|reflexivity]. Qed.
(* where all flags are known, nothing more is refused than conflicts *)
Theorem known_flags_no_refusal : forall h cur t file c, Forall (fun e => known (m_rflags (e_man e)) /\ known (m_wflags (e_man e))) h -> (exists e, In e h /\ cur = e_man e) ->
  Forall (fun e => conflicts_with (t_op t) (t_op (e_txn e)) = false) (skipn (N.to_nat (t_read t)) h) -> insert_commit h cur t file c = commit_on h t file c.
Proof.
  intros h cur t file c F [e0 [I0 ->]] NC. unfold insert_commit, can_write_dataset. rewrite Forall_forall in F. rewrite (proj1 (known_iff _) (proj2 (F e0 I0))).
  unfold commit_transaction. pose proof (check_others_spec h t (nrange (t_read t + 1) (length h - N.to_nat (t_read t)))) as S. destruct (check_others _ _ _); cbn [bbind]; [reflexivity| |contradiction].
  exfalso. destruct S as (v & I & S). apply nrange_In in I. unfold version_entry in S. destruct (N.eqb_spec v 0) as [->|NZ]; [lia|].
  destruct (nth_error h (N.to_nat v - 1)) as [e|] eqn:E; [|apply nth_error_None in E; lia]. destruct (S e eq_refl) as [K|X]; [apply K, F; exact (nth_error_In _ _ E)|].
  assert (Y : In e (skipn (N.to_nat (t_read t)) h)). { apply (nth_error_In _ (N.to_nat v - 1 - N.to_nat (t_read t))). rewrite <- E. rewrite <- (firstn_skipn (N.to_nat (t_read t)) h) at 2. rewrite nth_error_app2 by (rewrite firstn_length; lia). rewrite firstn_length, Nat.min_l by lia. reflexivity. }
  rewrite Forall_forall in NC. rewrite (NC e Y) in X. discriminate.
Qed.
Lemma lor_known : forall a b, known a -> known b -> known (N.lor a b).
Proof. intros a b A B i T. rewrite N.lor_spec in T. apply orb_prop in T. destruct T; [apply A|apply B]; assumption. Qed.
Lemma known_small : known 0 /\ known 1 /\ known 2 /\ known 8.
Proof. repeat split; apply known_iff; reflexivity. Qed.
Lemma flags_known : forall fs cfg st r w, feature_flags fs cfg st = BOk (r, w) -> known r /\ known w.
Proof.
  intros fs cfg st r w H. destruct known_small as (K0 & K1 & K2 & K8). unfold feature_flags, FLAG_DELETION_FILES, FLAG_MOVE_STABLE_ROW_IDS, FLAG_TABLE_CONFIG in H.
  set (dl := if existsb (fun f => is_some (f_del f)) fs then 1 else 0) in *. set (cf := match cfg with [] => 0 | _ => 8 end) in *.
  assert (KD : known dl) by (unfold dl; destruct (existsb _ fs); assumption). assert (KC : known cf) by (unfold cf; destruct cfg; assumption).
  destruct (existsb _ fs || st); [destruct (forallb _ fs); [|discriminate]|]; injection H as <- <-; split; repeat apply lor_known; assumption.
Qed.
(* whatever it builds on, this library writes known flags only: unknown ones are lost *)
Theorem written_flags_known : forall h t file c m ix, wc_auto_flags c = true -> commit_on h t file c = BOk (m, ix) -> known (m_rflags m) /\ known (m_wflags m).
Proof.
  intros h t file c m ix A H. unfold commit_on in H. apply bbind_ok in H. destruct H as [[m0 ix0] [_ H]]. apply bbind_ok in H. destruct H as [m1 [F H]]. injection H as <- <-.
  unfold finish in F. rewrite A in F. apply bbind_ok in F. destruct F as [[r w] [F1 F]]. apply bbind_ok in F. destruct F as [mx [_ F]]. injection F as <-. cbn. exact (flags_known _ _ _ _ _ F1).
Qed.

(** * What the checks miss *)
Definition set_flags (m : manifest) (r w : N) : manifest :=
  {| m_version := m_version m; m_schema := m_schema m; m_fragments := m_fragments m; m_rflags := r; m_wflags := w;
     m_max := m_max m; m_next_row := m_next_row m; m_config := m_config m; m_tag := m_tag m; m_txn := m_txn m |}.
Definition foreign (e : entry) (r w : N) : entry := {| e_txn := e_txn e; e_cfg := e_cfg e; e_man := set_flags (e_man e) r w; e_idx := e_idx e |}.
(* version 2 was appended by a newer library, with a flag this one does not know *)
Definition two := [(created, dflt); (tx 1 2 (Append [frag 0 11 5 [0%Z; 1%Z]]), dflt)].
Definition newer (r w : N) : list entry := firstn 1 (hist two) ++ [foreign (nth_entry 1 two) r w].
(* checkout_latest hands out a version that cannot be read *)
Theorem checkout_latest_refuted : exists h cur m, load_manifest h 1 = BOk cur /\ open_latest h = BErr /\ checkout_latest h cur = BOk m /\ ~ known (m_rflags m).
Proof.
  exists (newer 16 16), (e_man (nth_entry 0 two)), (set_flags (e_man (nth_entry 1 two)) 16 16). split; [vm_compute; reflexivity|]. split; [vm_compute; reflexivity|]. split; [vm_compute; reflexivity|]. rewrite known_iff. vm_compute. discriminate.
Qed.
(* a delete is committed on a version whose writer flags are unknown; the flag is gone afterwards *)
Theorem delete_ignores_writer_flags_refuted : exists h cur t m ix e, last_entry h = Some e /\ open_latest h = BOk cur /\ t_read t = m_version cur /\ ~ known (m_wflags (e_man e)) /\ commit_transaction h t 9 dflt = BOk (m, ix) /\ m_wflags m = 0.
Proof.
  exists (newer 0 16), (set_flags (e_man (nth_entry 1 two)) 0 16), (tx 2 3 (Delete [] [0])). do 3 eexists. split; [vm_compute; reflexivity|]. split; [vm_compute; reflexivity|]. split; [reflexivity|]. split; [rewrite known_iff; vm_compute; discriminate|]. split; [vm_compute; reflexivity|reflexivity].
Qed.
(* and so is an append through a handle opened before that version *)
Theorem append_from_older_handle_refuted : exists h cur t m ix e, last_entry h = Some e /\ load_manifest h 1 = BOk cur /\ t_read t = m_version cur /\ ~ known (m_wflags (e_man e)) /\ insert_commit h cur t 9 dflt = BOk (m, ix) /\ m_wflags m = 0.
Proof.
  exists (newer 0 16), (e_man (nth_entry 0 two)), (tx 1 3 (Append [frag 0 12 5 [0%Z; 1%Z]])). do 3 eexists. split; [vm_compute; reflexivity|]. split; [vm_compute; reflexivity|]. split; [reflexivity|]. split; [rewrite known_iff; vm_compute; discriminate|]. split; [vm_compute; reflexivity|reflexivity].
Qed.
(* the hypotheses above: a reader flag between the version read and the latest; an insert on the latest *)
Example refused_case : exists e, version_entry (newer 16 16) 2 = Some e /\ ~ known (m_rflags (e_man e)) /\ commit_transaction (newer 16 16) (tx 1 3 (Append [frag 0 12 5 [0%Z; 1%Z]])) 9 dflt = BErr.
Proof. eexists. split; [vm_compute; reflexivity|]. split; [rewrite known_iff; vm_compute; discriminate|]. vm_compute. reflexivity. Qed.
Example insert_refused_case : exists e, last_entry (newer 0 16) = Some e /\ ~ known (m_wflags (e_man e)) /\ insert_commit (newer 0 16) (e_man e) (tx 2 3 (Append [frag 0 12 5 [0%Z; 1%Z]])) 9 dflt = BErr.
Proof. eexists. split; [vm_compute; reflexivity|]. split; [rewrite known_iff; vm_compute; discriminate|]. vm_compute. reflexivity. Qed.
Example not_refused_case : exists m ix, insert_commit (hist two) (e_man (nth_entry 0 two)) (tx 1 3 (Append [frag 0 12 5 [0%Z; 1%Z]])) 9 dflt = BOk (m, ix) /\ Forall (fun e => known (m_rflags (e_man e)) /\ known (m_wflags (e_man e))) (hist two).
Proof. do 2 eexists. split; [vm_compute; reflexivity|]. repeat constructor; apply known_iff; vm_compute; reflexivity. Qed.
