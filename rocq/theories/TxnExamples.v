(* Concrete histories: witnesses for the refuted statements, and cases meeting
   the hypotheses of the theorems. *)
From Coq Require Import List Arith NArith ZArith Bool Lia Permutation.
From Coq Require Import ZifyBool ZifyN ZifyNat.
From Verif Require Import Lib AMap TreeMapModel SerdeModel TxnModel TxnSpec TxnLemmas TxnIdsProofs TxnFrame TxnRowIds TxnRewrite.
Import ListNotations.
Local Open Scope N_scope.

(* run a list of commits *)
Definition step (h : list entry) (t : txn) (c : wconfig) : option (list entry) :=
  if ((N.of_nat (length h) =? 0) || ((1 <=? t_read t) && (t_read t <=? N.of_nat (length h)))) &&
     forallb (fun e => negb (conflicts_with (t_op t) (t_op (e_txn e)))) (skipn (N.to_nat (t_read t)) h)
  then match commit_on h t (t_uuid t) c with
       | BOk (m, ix) => Some (h ++ [{| e_txn := t; e_cfg := c; e_man := m; e_idx := ix |}])
       | _ => None
       end
  else None.
Fixpoint run (h : list entry) (l : list (txn * wconfig)) : option (list entry) :=
  match l with [] => Some h | (t, c) :: r => match step h t c with Some h' => run h' r | None => None end end.
Lemma run_history : forall l h h', history h -> run h l = Some h' -> history h'.
Proof.
  induction l as [|[t c] r IH]; intros h h' H E; cbn [run] in E; [now injection E as <-|].
  destruct (step h t c) as [h2|] eqn:E2; [|discriminate]. apply (IH h2); auto. clear E. unfold step in E2.
  destruct (_ && _) eqn:G; [|discriminate]. apply andb_true_iff in G as [G1 G2]. destruct (commit_on h t (t_uuid t) c) as [[m ix]| |] eqn:B; try discriminate.
  injection E2 as <-. econstructor; eauto.
  - destruct h as [|x h]; [now left|right]. cbn [length] in *. lia.
  - apply Forall_forall. intros x Hx. rewrite forallb_forall in G2. specialize (G2 x Hx). now apply negb_true_iff in G2.
Qed.
(* checking a condition on every entry *)
Fixpoint every (P : list entry -> txn -> Prop) (pre h : list entry) : Prop :=
  match h with [] => True | e :: t => P pre (e_txn e) /\ every P (pre ++ [e]) t end.
Lemma every_all : forall P h pre, every P pre h -> forall h1 e h2, h = h1 ++ e :: h2 -> P (pre ++ h1) (e_txn e).
Proof.
  induction h as [|x t IH]; intros pre H h1 e h2 E; [destruct h1; discriminate|]. destruct H as [H1 H2]. destruct h1 as [|y h1]; cbn in E; injection E as -> ->.
  - now rewrite app_nil_r.
  - specialize (IH _ H2 h1 e h2 eq_refl). rewrite <- app_assoc in IH. exact IH.
Qed.
Lemma every_entries : forall P h, every P [] h -> all_entries P h.
Proof. intros P h H h1 e h2 E. now apply (every_all P h [] H h1 e h2). Qed.

(* boolean versions of the writers' conditions, for concrete histories *)
Fixpoint nodupb (l : list N) : bool := match l with [] => true | x :: t => negb (memN x t) && nodupb t end.
Lemma nodupb_ok : forall l, nodupb l = true -> NoDup l.
Proof. induction l as [|x t IH]; intros H; constructor; cbn in H; apply andb_true_iff in H as [H1 H2]; auto. apply negb_true_iff, memN_false in H1. auto. Qed.
Definition usedb (h : list entry) (i : N) : bool := existsb (fun e => memN i (frag_ids (e_man e))) h.
Lemma usedb_ok : forall h i, usedb h i = false -> ~ used h i.
Proof.
  intros h i H [e [He Hi]]. assert (usedb h i = true); [|congruence]. apply existsb_exists. exists e. split; auto. now apply memN_In.
Qed.
Definition chosenb (h : list entry) (l : list fragment) : bool :=
  nodupb (chosen_ids l) && forallb (fun i => negb (usedb h i) && match latest h with Some m => i <=? m_max m | None => false end) (chosen_ids l).
Lemma chosenb_ok : forall h l, chosenb h l = true -> NoDup (chosen_ids l) /\ forall i, In i (chosen_ids l) -> ~ used h i /\ exists m, latest h = Some m /\ i <= m_max m.
Proof.
  intros h l H. apply andb_true_iff in H as [H1 H2]. split; [now apply nodupb_ok|]. intros i Hi. rewrite forallb_forall in H2. specialize (H2 i Hi).
  apply andb_true_iff in H2 as [H2 H3]. split; [apply usedb_ok; now apply negb_true_iff|]. destruct (latest h) as [m|]; [|discriminate]. exists m. split; auto. lia.
Qed.
Definition ids_honestb (h : list entry) (t : txn) : bool :=
  match t_op t with
  | Append l | Update _ _ l => chosenb h l
  | Rewrite gs _ => chosenb h (flat_map rg_new gs)
  | Overwrite l _ _ => match chosen_ids l with [] => true | _ => false end
  | Merge l _ => match man_at h (t_read t) with Some m => list_eqb N.eqb (map f_id l) (frag_ids m) | None => false end
  | DataReplacement r => nodupb (map fst r)
  | _ => true
  end.
Lemma list_eqbN_ok : forall a b, list_eqb N.eqb a b = true -> a = b.
Proof. induction a as [|x a IH]; intros [|y b] H; try discriminate; auto. cbn in H. apply andb_true_iff in H as [H1 H2]. f_equal; [lia|auto]. Qed.
Lemma ids_honestb_ok : forall h t, ids_honestb h t = true -> ids_honest h t.
Proof.
  intros h t H. unfold ids_honest, ids_honestb in *. destruct (t_op t); auto using chosenb_ok, nodupb_ok.
  - destruct (chosen_ids fragments); [auto|discriminate].
  - destruct (man_at h (t_read t)) as [m|]; [|discriminate]. exists m. split; auto. now apply list_eqbN_ok.
Qed.
Fixpoint everyb (P : list entry -> txn -> bool) (pre h : list entry) : bool :=
  match h with [] => true | e :: t => P pre (e_txn e) && everyb P (pre ++ [e]) t end.
Lemma everyb_ok : forall (Pb : list entry -> txn -> bool) (P : list entry -> txn -> Prop), (forall h t, Pb h t = true -> P h t) ->
  forall h, everyb Pb [] h = true -> all_entries P h.
Proof.
  intros Pb P Hs h H. apply every_entries. revert H. generalize (@nil entry). induction h as [|e t IH]; intros pre H; cbn in *; auto.
  apply andb_true_iff in H as [H1 H2]. auto.
Qed.
Definition optN_eqb (a b : option (list N)) : bool := match a, b with Some x, Some y => list_eqb N.eqb x y | None, None => true | _, _ => false end.
Lemma optN_eqb_ok : forall a b, optN_eqb a b = true -> a = b.
Proof. intros [x|] [y|] H; try discriminate; auto. f_equal. now apply list_eqbN_ok. Qed.
Definition keepsb (h : list entry) (t : txn) (u : fragment) : bool :=
  match man_at h (t_read t) with Some m => existsb (fun f => (f_id f =? f_id u) && optN_eqb (f_rowids f) (f_rowids u)) (m_fragments m) | None => false end.
Lemma keepsb_ok : forall h t u, keepsb h t u = true -> exists m f, man_at h (t_read t) = Some m /\ In f (m_fragments m) /\ f_id f = f_id u /\ f_rowids f = f_rowids u.
Proof.
  intros h t u H. unfold keepsb in H. destruct (man_at h (t_read t)) as [m|]; [|discriminate]. apply existsb_exists in H as [f [H1 H2]]. apply andb_true_iff in H2 as [H2 H3].
  exists m, f. split; auto. split; auto. split; [lia|now apply optN_eqb_ok].
Qed.
Definition rowids_honestb (h : list entry) (t : txn) : bool :=
  match t_op t with
  | Append l | Overwrite l _ _ => forallb (fun f => negb (is_some (f_rowids f))) l
  | Delete updated _ => forallb (keepsb h t) updated
  | Update _ updated l => forallb (keepsb h t) updated && forallb (fun f => negb (is_some (f_rowids f))) l
  | Merge l _ => forallb (keepsb h t) l
  | Rewrite gs _ => forallb (fun g => forallb (keepsb h t) (rg_old g)) gs && nodupb (flat_map frag_row_ids (flat_map rg_new gs)) &&
                    forallb (fun x => memN x (flat_map frag_row_ids (flat_map rg_old gs))) (flat_map frag_row_ids (flat_map rg_new gs))
  | _ => true
  end.
Lemma rowids_honestb_ok : forall h t, rowids_honestb h t = true -> rowids_honest h t.
Proof.
  intros h t H. unfold rowids_honest, rowids_honestb in *.
  assert (K : forall l, forallb (keepsb h t) l = true -> Forall (fun u => exists m f, man_at h (t_read t) = Some m /\ In f (m_fragments m) /\ f_id f = f_id u /\ f_rowids f = f_rowids u) l).
  { intros l Hl. apply Forall_forall. intros u Hu. rewrite forallb_forall in Hl. apply keepsb_ok. auto. }
  assert (Z : forall l, forallb (fun f => negb (is_some (f_rowids f))) l = true -> Forall (fun f => f_rowids f = None) l).
  { intros l Hl. apply Forall_forall. intros u Hu. rewrite forallb_forall in Hl. specialize (Hl u Hu). destruct (f_rowids u); [discriminate|auto]. }
  destruct (t_op t); auto.
  - apply andb_true_iff in H as [H H3]. apply andb_true_iff in H as [H1 H2]. split; [|split].
    + apply Forall_forall. intros g Hg. rewrite forallb_forall in H1. apply K. auto.
    + now apply nodupb_ok.
    + intros x Hx. rewrite forallb_forall in H3. apply memN_In. auto.
  - apply andb_true_iff in H as [H1 H2]. auto.
Qed.

Definition file (p : N) (fs : list Z) : dfile := {| df_path := p; df_fields := fs; df_cols := fs; df_major := 2; df_minor := 0 |}.
Definition frag (id path rows : N) (fs : list Z) : fragment := {| f_id := id; f_files := [file path fs]; f_del := None; f_rowids := None; f_rows := Some rows |}.
Definition with_del (f : fragment) (n : N) : fragment :=
  {| f_id := f_id f; f_files := f_files f; f_del := Some {| dl_read_version := 1; dl_id := n; dl_bitmap := false; dl_count := Some 1 |}; f_rowids := f_rowids f; f_rows := f_rows f |}.
Definition sch (fs : list Z) : schema := {| sc_fields := map (fun z => {| fd_id := z; fd_name := Z.to_N z; fd_meta := [] |}) fs; sc_meta := [] |}.
Definition tx (read id : N) (o : op) : txn := {| t_read := read; t_uuid := id; t_op := o; t_tag := None |}.
Definition dflt : wconfig := {| wc_auto_flags := true; wc_stable := false |}.
Definition stable : wconfig := {| wc_auto_flags := true; wc_stable := true |}.
Definition created := tx 0 1 (Overwrite [frag 0 10 5 [0%Z; 1%Z]] (sch [0%Z; 1%Z]) None).

Definition hist (l : list (txn * wconfig)) : list entry := match run [] l with Some h => h | None => [] end.
Lemma hist_history : forall l, run [] l <> None -> history (hist l).
Proof. intros l H. unfold hist. destruct (run [] l) as [h|] eqn:E; [|congruence]. eapply run_history; eauto. constructor. Qed.
Ltac hist_ok := apply hist_history; vm_compute; discriminate.
Definition dummy : entry := {| e_txn := created; e_cfg := dflt; e_man := {| m_version := 0; m_schema := sch []; m_fragments := []; m_rflags := 0; m_wflags := 0; m_max := 0; m_next_row := 0; m_config := []; m_tag := None; m_txn := None |}; e_idx := [] |}.
Definition nth_entry (n : nat) (l : list (txn * wconfig)) : entry := nth n (hist l) dummy.
(* split a concrete history before its last entry *)
Lemma hist_split : forall l n, length (hist l) = S n -> hist l = firstn n (hist l) ++ [nth_entry n l].
Proof.
  intros l n H. unfold nth_entry. rewrite <- (firstn_skipn n (hist l)) at 1. f_equal.
  assert (L : length (skipn n (hist l)) = 1%nat) by (rewrite skipn_length; lia). destruct (skipn n (hist l)) as [|x [|y t]] eqn:E; try discriminate.
  f_equal. rewrite <- (firstn_skipn n (hist l)), E, app_nth2; rewrite firstn_length; [|lia]. replace (n - Nat.min n (length (hist l)))%nat with 0%nat by lia. reflexivity.
Qed.
Ltac good_ok := split; [hist_ok|apply (everyb_ok ids_honestb); [exact ids_honestb_ok|vm_compute; reflexivity]].
Ltac good_rows_ok := split; [good_ok|apply (everyb_ok rowids_honestb); [exact rowids_honestb_ok|vm_compute; reflexivity]].

(* ---- C38 ---- *)
(* all rows of the only fragment, 0, are deleted; the next append gets id 0 again *)
Definition reuse0 := [(created, dflt); (tx 1 2 (Delete [] [0]), dflt); (tx 2 3 (Append [frag 0 11 5 [0%Z; 1%Z]]), dflt)].
Lemma id_reuse_refuted : exists h e m, good (h ++ [e]) /\ no_restore h /\ is_reset (t_op (e_txn e)) = false /\ latest h = Some m /\
  exists i, In i (frag_ids (e_man e)) /\ ~ In i (frag_ids m) /\ used h i.
Proof.
  exists (firstn 2 (hist reuse0)), (nth_entry 2 reuse0), (e_man (nth_entry 1 reuse0)). rewrite <- hist_split by reflexivity.
  split; [good_ok|]. split; [|split; [reflexivity|split; [vm_compute; reflexivity|]]].
  - intros e v He. vm_compute in He. destruct He as [<-|[<-|[]]]; discriminate.
  - exists 0. vm_compute. split; [now left|]. split; [tauto|]. eexists. split; [now left|]. now left.
Qed.
(* DataReplacement listing a fragment twice duplicates its id *)
Definition dup_repl := [(created, dflt); (tx 1 2 (DataReplacement [(0, file 20 [0%Z; 1%Z]); (0, file 21 [0%Z; 1%Z])]), dflt)].
Lemma duplicate_ids_refuted : exists h e, history h /\ In e h /\ ~ NoDup (frag_ids (e_man e)).
Proof.
  exists (hist dup_repl), (nth_entry 1 dup_repl). split; [hist_ok|]. split; [vm_compute; right; left; reflexivity|]. vm_compute. intros H. inversion H; subst. apply H2. now left.
Qed.
(* an honest history with append, delete, reserve and rewrite *)
Definition honest_h := [(created, dflt); (tx 1 2 (Append [frag 0 11 5 [0%Z; 1%Z]]), dflt); (tx 1 3 (Delete [with_del (frag 0 10 5 [0%Z; 1%Z]) 7] []), dflt);
   (tx 3 4 (ReserveFragments 2), dflt); (tx 4 5 (Rewrite [{| rg_old := [with_del (frag 0 10 5 [0%Z; 1%Z]) 7; frag 1 11 5 [0%Z; 1%Z]]; rg_new := [frag 2 12 9 [0%Z; 1%Z]] |}] []), dflt);
   (tx 3 6 (Append [frag 0 13 4 [0%Z; 1%Z]; frag 0 14 4 [0%Z; 1%Z]]), dflt)].
Example honest_good : good_rows (hist honest_h) /\ length (hist honest_h) = 6%nat /\ option_map frag_ids (latest (hist honest_h)) = Some [2; 4; 5].
Proof. split; [good_rows_ok|vm_compute; auto]. Qed.

(* ---- C36, C37 ---- *)
Definition two_files (id : N) : fragment := {| f_id := id; f_files := [file 10 [0%Z]; file 11 [1%Z]]; f_del := None; f_rowids := None; f_rows := Some 5 |}.
Definition created2 := tx 0 1 (Overwrite [two_files 0] (sch [0%Z; 1%Z]) None).
(* a delete accepted after a concurrent Project brings dropped data files back *)
Definition resurrect := [(created2, dflt); (tx 1 2 (Project (sch [0%Z])), dflt); (tx 1 3 (Delete [with_del (two_files 0) 7] []), dflt)].
Lemma unchanged_refuted : exists h e m0 m f, history (h ++ [e]) /\ row_op (t_op (e_txn e)) /\ man_at h (t_read (e_txn e)) = Some m0 /\ latest h = Some m /\
  In f (m_fragments m0) /\ touches (t_op (e_txn e)) (f_id f) /\ ~ In f (m_fragments m) /\
  exists g d, In g (m_fragments (e_man e)) /\ In d (f_files g) /\ forall z, In z (df_fields d) -> ~ In z (field_ids (m_schema (e_man e))).
Proof.
  exists (firstn 2 (hist resurrect)), (nth_entry 2 resurrect), (e_man (nth_entry 0 resurrect)), (e_man (nth_entry 1 resurrect)), (two_files 0).
  rewrite <- hist_split by reflexivity. split; [hist_ok|]. vm_compute. split; auto. split; auto. split; auto. split; [auto|]. split; [right; eexists; split; [now left|reflexivity]|].
  split; [intros [C|[]]; discriminate|]. do 2 eexists. split; [now left|]. split; [right; now left|]. intros z [<-|[]] [C|[]]; discriminate.
Qed.
(* a Project computed on the old table is accepted after an Overwrite and drops every data file *)
Definition overwritten := [(created, dflt); (tx 1 2 (Overwrite [frag 0 20 7 [2%Z]] (sch [2%Z]) None), dflt); (tx 1 3 (Project (sch [0%Z])), dflt)].
Lemma project_overwrite_refuted : exists h e m s, history (h ++ [e]) /\ t_op (e_txn e) = Project s /\ latest h = Some m /\
  (exists x, In x (since h (t_read (e_txn e))) /\ exists l s' u, t_op (e_txn x) = Overwrite l s' u) /\
  (exists f, In f (m_fragments m) /\ f_files f <> [] /\ f_rows f = Some 7) /\
  forall f, In f (m_fragments (e_man e)) -> f_files f = [] /\ f_rows f = Some 7.
Proof.
  exists (firstn 2 (hist overwritten)), (nth_entry 2 overwritten), (e_man (nth_entry 1 overwritten)), (sch [0%Z]).
  rewrite <- hist_split by reflexivity. split; [hist_ok|]. split; [vm_compute; reflexivity|]. split; [vm_compute; reflexivity|]. split; [|split].
  - exists (nth_entry 1 overwritten). split; [vm_compute; now left|]. do 3 eexists. vm_compute. reflexivity.
  - exists (frag 0 20 7 [2%Z]). vm_compute. split; [now left|]. split; [discriminate|reflexivity].
  - vm_compute. intros f [<-|[]]. auto.
Qed.
(* ... or reads the new table's file as the old table's column *)
Definition overwritten2 := [(created, dflt); (tx 1 2 (Overwrite [frag 0 20 7 [0%Z]] {| sc_fields := [{| fd_id := 0%Z; fd_name := 99; fd_meta := [] |}]; sc_meta := [] |} None), dflt); (tx 1 3 (Project (sch [0%Z])), dflt)].
Lemma project_relabels_refuted : exists h e m f, history (h ++ [e]) /\ latest h = Some m /\ In f (m_fragments m) /\ In f (m_fragments (e_man e)) /\ f_files f <> [] /\
  map fd_id (sc_fields (m_schema m)) = map fd_id (sc_fields (m_schema (e_man e))) /\ map fd_name (sc_fields (m_schema m)) <> map fd_name (sc_fields (m_schema (e_man e))).
Proof.
  exists (firstn 2 (hist overwritten2)), (nth_entry 2 overwritten2), (e_man (nth_entry 1 overwritten2)), (frag 0 20 7 [0%Z]).
  rewrite <- hist_split by reflexivity. split; [hist_ok|]. vm_compute. repeat split; auto; discriminate.
Qed.

(* ---- C39, C40 ---- *)
Definition created_s := tx 0 1 (Overwrite [frag 0 10 2 [0%Z]] (sch [0%Z]) None).
Definition append_s (r u p : N) := tx r u (Append [frag 0 p 2 [0%Z]]).
(* deleting every fragment loses the stable row id flag *)
Definition flag_lost := [(created_s, stable); (tx 1 2 (Delete [] [0]), dflt); (append_s 2 3 11, dflt)].
Lemma stable_flag_refuted : exists h m1 m3 f, good_rows h /\ no_restore h /\ man_at h 1 = Some m1 /\ uses_stable m1 = true /\ man_at h 3 = Some m3 /\
  In f (m_fragments m3) /\ f_rows f = Some 2 /\ f_rowids f = None.
Proof.
  exists (hist flag_lost), (e_man (nth_entry 0 flag_lost)), (e_man (nth_entry 2 flag_lost)), (frag 0 11 2 [0%Z]).
  split; [good_rows_ok|]. split; [|vm_compute; repeat split; auto]. intros e v He. vm_compute in He. destruct He as [<-|[<-|[<-|[]]]]; discriminate.
Qed.
Definition restored := [(created_s, stable); (append_s 1 2 11, stable); (tx 2 3 (Restore 1), stable); (append_s 3 4 12, stable)].
Lemma restore_reuse_refuted : exists h e m, good_rows (h ++ [e]) /\ latest h = Some m /\
  (exists i, In i (frag_ids (e_man e)) /\ ~ In i (frag_ids m) /\ used h i) /\ (exists x, In x (row_ids (e_man e)) /\ ~ In x (row_ids m) /\ row_used h x).
Proof.
  exists (firstn 3 (hist restored)), (nth_entry 3 restored), (e_man (nth_entry 2 restored)). rewrite <- hist_split by reflexivity.
  split; [good_rows_ok|]. split; [vm_compute; reflexivity|]. split.
  - exists 1. vm_compute. split; [auto|]. split; [intuition discriminate|]. eexists. split; [right; left; reflexivity|]. right. now left.
  - exists 2. vm_compute. split; [auto|]. split; [intuition discriminate|]. eexists. split; [right; left; reflexivity|]. vm_compute. auto.
Qed.
(* a stable history with append, delete, update and rewrite *)
Definition ids_frag (id p : N) (r : list N) : fragment := {| f_id := id; f_files := [file p [0%Z]]; f_del := None; f_rowids := Some r; f_rows := Some (N.of_nat (length r)) |}.
Definition stable_h := [(created_s, stable); (append_s 1 2 11, stable); (append_s 2 3 12, stable);
  (tx 3 4 (Update [] [with_del (ids_frag 2 12 [4; 5]) 7] [frag 0 13 1 [0%Z]]), dflt); (tx 4 5 (ReserveFragments 1), dflt);
  (tx 5 6 (Rewrite [{| rg_old := [ids_frag 0 10 [0; 1]; ids_frag 1 11 [2; 3]]; rg_new := [ids_frag 4 14 [0; 1; 2; 3]] |}] []), dflt)].
Example stable_good : good_rows (hist stable_h) /\ length (hist stable_h) = 6%nat /\ option_map row_ids (latest (hist stable_h)) = Some [4; 5; 6; 0; 1; 2; 3].
Proof. split; [good_rows_ok|vm_compute; auto]. Qed.

(* ---- C51: the rewritten rows end up after fragment 2's and 3's ---- *)
Lemma rewrite_order_refuted : exists h e m gs rw, good_rows (h ++ [e]) /\ t_op (e_txn e) = Rewrite gs rw /\ latest h = Some m /\
  NoDup (map f_id (flat_map rg_old gs)) /\ (forall g, In g gs -> adjacent (frag_ids m) g) /\
  (forall g o, In g gs -> In o (rg_old g) -> exists mr, man_at h (t_read (e_txn e)) = Some mr /\ In o (m_fragments mr)) /\
  (forall g, In g gs -> flat_map frag_row_ids (rg_new g) = flat_map frag_row_ids (rg_old g)) /\
  flat_map frag_row_ids (m_fragments (e_man e)) <> flat_map frag_row_ids (m_fragments m).
Proof.
  exists (firstn 5 (hist stable_h)), (nth_entry 5 stable_h), (e_man (nth_entry 4 stable_h)), [{| rg_old := [ids_frag 0 10 [0; 1]; ids_frag 1 11 [2; 3]]; rg_new := [ids_frag 4 14 [0; 1; 2; 3]] |}], [].
  rewrite <- hist_split by reflexivity. split; [good_rows_ok|]. split; [vm_compute; reflexivity|]. split; [vm_compute; reflexivity|]. split; [apply nodupb_ok; reflexivity|]. split; [|split; [|split]].
  - intros g [<-|[]]. split; [discriminate|]. exists [], [2; 3]. vm_compute. reflexivity.
  - intros g o [<-|[]] Ho. eexists. split; [vm_compute; reflexivity|]. vm_compute in Ho |- *. intuition.
  - intros g [<-|[]]. reflexivity.
  - vm_compute. discriminate.
Qed.
(* compacting the last fragments keeps the order *)
Definition tail_h := [(created_s, stable); (append_s 1 2 11, stable); (append_s 2 3 12, stable); (tx 3 4 (ReserveFragments 1), dflt);
  (tx 4 5 (Rewrite [{| rg_old := [ids_frag 1 11 [2; 3]; ids_frag 2 12 [4; 5]]; rg_new := [ids_frag 3 14 [2; 3; 4; 5]] |}] []), dflt)].
Example tail_good : good_rows (hist tail_h) /\ option_map row_ids (latest (hist tail_h)) = Some [0; 1; 2; 3; 4; 5].
Proof. split; [good_rows_ok|vm_compute; auto]. Qed.

(* ---- C42, C43 ---- *)
Definition config_h := [(created, dflt); (tx 1 2 (UpdateConfig (Some [(1, 10); (2, 20)]) None None None), dflt);
  (tx 1 3 (UpdateConfig (Some [(3, 30)]) (Some [4]) (Some [(7, 7)]) None), dflt); (tx 3 4 (Delete [with_del (frag 0 10 5 [0%Z; 1%Z]) 3] []), dflt)].
Example config_example : history (hist config_h) /\ option_map m_config (latest (hist config_h)) = Some [(1, 10); (2, 20); (3, 30)] /\
  option_map m_rflags (latest (hist config_h)) = Some 1 /\ option_map m_wflags (latest (hist config_h)) = Some 9 /\
  run [] [(created, dflt); (tx 1 2 (UpdateConfig (Some [(1, 10)]) None None None), dflt); (tx 1 3 (UpdateConfig None (Some [1]) None None), dflt)] = None.
Proof. split; [hist_ok|]. vm_compute. auto. Qed.
