(* Keys under MERGE INSERT: one merge after another keeps them unique, concurrent merges do not. *)
From Coq Require Import List Arith NArith ZArith Bool Lia Permutation.
From Verif Require Import Lib AMap SerdeModel DeletionModel DeletionSpec DeletionProofs MergeModel MergeSpec MergeProofs MergeProofs2 MergeExamples.
From Verif Require Import TreeMapModel TxnModel TxnSpec TxnLemmas TxnIdsProofs TxnFrame TxnRowIds TxnRewrite TxnExamples.
Import ListNotations.
Local Open Scope N_scope.

(* no two rows have the same key *)
Definition unique_keys (on : list nat) (rows : list row) : Prop := ForallOrdPairs (fun a b => same_key on a b = false) rows.

Lemma same_key_sym : forall on a b, same_key on a b = same_key on b a.
Proof.
  intros on a b. unfold same_key. induction on as [|c l IH]; cbn; auto. rewrite IH. f_equal.
  destruct (nth c a None), (nth c b None); auto. apply Z.eqb_sym.
Qed.
Lemma same_key_trans : forall on a b c, same_key on a b = true -> same_key on b c = true -> same_key on a c = true.
Proof.
  intros on a b c H1 H2. unfold same_key in *. rewrite forallb_forall in *. intros x Hx. specialize (H1 x Hx). specialize (H2 x Hx).
  destruct (nth x a None), (nth x b None), (nth x c None); try discriminate. apply Z.eqb_eq in H1, H2. apply Z.eqb_eq. congruence.
Qed.
Lemma pairs_app : forall {A} (R : A -> A -> Prop) l l', ForallOrdPairs R l -> ForallOrdPairs R l' -> (forall x y, In x l -> In y l' -> R x y) -> ForallOrdPairs R (l ++ l').
Proof.
  intros A R l l' H H' X. induction H as [|a l Ha H IH]; cbn; auto. constructor.
  - apply Forall_app. split; auto. apply Forall_forall. intros y Hy. apply X; auto. now left.
  - apply IH. intros x y Hx. apply X. now right.
Qed.
Lemma pairs_filter : forall {A} (R : A -> A -> Prop) f l, ForallOrdPairs R l -> ForallOrdPairs R (filter f l).
Proof.
  intros A R f l H. induction H as [|a l Ha H IH]; cbn; [constructor|]. destruct (f a); auto. constructor; auto.
  apply Forall_forall. intros y Hy. apply filter_In in Hy as [Hy _]. rewrite Forall_forall in Ha. auto.
Qed.
Lemma pairs_flat_map : forall {A B} (R : B -> B -> Prop) (Q : A -> A -> Prop) (f : A -> list B) l, ForallOrdPairs Q l ->
  (forall a, In a l -> ForallOrdPairs R (f a)) -> (forall a b x y, Q a b -> In x (f a) -> In y (f b) -> R x y) -> ForallOrdPairs R (flat_map f l).
Proof.
  intros A B R Q f l H H1 H2. induction H as [|a l Ha H IH]; cbn; [constructor|]. apply pairs_app.
  - apply H1. now left.
  - apply IH. intros b Hb. apply H1. now right.
  - intros x y Hx Hy. apply in_flat_map in Hy as [b [Hb Hy]]. rewrite Forall_forall in Ha. eapply H2; eauto.
Qed.
Lemma pairs_perm : forall {A} (R : A -> A -> Prop), (forall a b, R a b -> R b a) -> forall l l', Permutation l l' -> ForallOrdPairs R l -> ForallOrdPairs R l'.
Proof.
  intros A R S l l' P. induction P; intros H; auto.
  - inversion H; subst. constructor; auto. now apply (Permutation_Forall P).
  - inversion H as [|? ? H1 H2]; subst. inversion H2 as [|? ? H3 H4]; subst. inversion H1; subst. constructor; [constructor; auto|]. constructor; auto.
Qed.
Lemma fate_from : forall p src t x, In x (fate p src t) -> x = t \/ (In x src /\ same_key (p_on p) x t = true).
Proof.
  intros p src t x H. unfold fate in H. destruct (filter (fun s => same_key (p_on p) s t) src) as [|m ms] eqn:E.
  - destruct (wants_delete p t); [contradiction|]. destruct H as [<-|[]]. now left.
  - destruct (filter (fun s => wants_update p s t) (m :: ms)) as [|u us] eqn:E2; [destruct H as [<-|[]]; now left|].
    rewrite <- E2 in H. apply filter_In in H as [H _]. rewrite <- E in H. apply filter_In in H. now right.
Qed.
Lemma fate_unique : forall p src t, unique_keys (p_on p) src -> unique_keys (p_on p) (fate p src t).
Proof.
  intros p src t U. unfold fate, unique_keys. destruct (filter (fun s => same_key (p_on p) s t) src) as [|m ms] eqn:E.
  - destruct (wants_delete p t); repeat constructor.
  - destruct (filter (fun s => wants_update p s t) (m :: ms)) as [|u us] eqn:E2; [repeat constructor|].
    rewrite <- E2. apply pairs_filter. rewrite <- E. now apply pairs_filter.
Qed.
(* the SQL merge keeps keys unique *)
Lemma merged_unique : forall p src tgt, unique_keys (p_on p) src -> unique_keys (p_on p) tgt -> unique_keys (p_on p) (merged p src tgt).
Proof.
  intros p src tgt Us Ut. unfold merged. apply pairs_app.
  - apply pairs_flat_map with (Q := fun a b => same_key (p_on p) a b = false); auto.
    + intros a _. now apply fate_unique.
    + intros a b x y Q Hx Hy. apply not_true_iff_false. intros C. apply not_true_iff_false in Q. apply Q.
      assert (X : x = a \/ same_key (p_on p) a x = true) by (apply fate_from in Hx as [->|[_ Hx]]; [now left|right; now rewrite same_key_sym]).
      assert (Y : y = b \/ same_key (p_on p) y b = true) by (apply fate_from in Hy as [->|[_ Hy]]; auto).
      assert (Z : same_key (p_on p) a y = true) by (destruct X as [->|X]; [auto|eapply same_key_trans; eauto]).
      destruct Y as [->|Y]; [auto|eapply same_key_trans; eauto].
  - destruct (p_insert p); [now apply pairs_filter|constructor].
  - intros x y Hx Hy. destruct (p_insert p); [|contradiction]. apply in_flat_map in Hx as [t [Ht Hx]]. apply filter_In in Hy as [_ Hy].
    apply negb_true_iff, not_true_iff_false in Hy. apply not_true_iff_false. intros C. apply Hy. apply existsb_exists. exists t. split; auto.
    rewrite same_key_sym in C. apply fate_from in Hx as [->|[_ Hx]]; auto. eapply same_key_trans; eauto.
Qed.
(* so does MERGE INSERT, when its table is the one it commits on *)
Theorem merge_unique : forall p w src t ts bs new t', table_ok t -> addressed t ->
  visible p src -> visible p (contents t) -> unique_keys (p_on p) src -> unique_keys (p_on p) (contents t) ->
  Permutation ts (scan t) -> Permutation (concat bs) (full_join false (p_on p) src ts) ->
  written (map fst (out_rows p w bs)) new -> merge_table p w t bs new = Some t' -> unique_keys (p_on p) (contents t').
Proof.
  intros p w src t ts bs new t' T A V1 V2 U1 U2 P1 P2 Wr E.
  destruct (merge_exact p w src t ts bs new T A V1 V2 P1 P2 Wr) as [u [E' [P _]]]. rewrite E in E'. injection E' as <-.
  eapply pairs_perm; [|apply Permutation_sym; exact P|now apply merged_unique].
  intros a b H. now rewrite same_key_sym.
Qed.
Example merge_unique_ex : unique_keys (p_on sync) src1 /\ unique_keys (p_on sync) (contents tbl1).
Proof. split; repeat constructor. Qed.

(* ---- concurrent merges ---- *)
(* the rows of a manifest, given the contents of the data files (here: one file per fragment, no deletions) *)
Definition table_of (files : N -> list row) (m : manifest) : table :=
  map (fun f => fr (f_id f) (flat_map (fun d => files (df_path d)) (f_files f)) NoDel None) (m_fragments m).
(* the transaction of a merge that deletes no row of the table it read *)
Definition inserting_merge (files : N -> list row) (p : params) (src : list row) (m : manifest) (o : op) : Prop :=
  exists bs new, Permutation (concat bs) (full_join false (p_on p) src (scan (table_of files m))) /\ out_deleted p 2 bs = [] /\
    flat_map (fun f => flat_map (fun d => files (df_path d)) (f_files f)) new = map fst (out_rows p 2 bs) /\ o = Update [] [] new.

Theorem inserts_never_conflict : forall new new', conflicts_with (Update [] [] new) (Update [] [] new') = false.
Proof.
  reflexivity.
Qed.
(* merges that change or remove a common fragment conflict *)
Theorem updates_conflict : forall rm up nw rm' up' nw' i, touches (Update rm up nw) i -> touches (Update rm' up' nw') i ->
  conflicts_with (Update rm up nw) (Update rm' up' nw') = true.
Proof. intros. apply row_conflict; try exact I. eauto. Qed.
Example updates_conflict_ex : touches (Update [2] [] []) 2 /\ touches (Update [] [frag 2 1 1 [0%Z]] []) 2.
Proof. split; cbn; [tauto|]. right. eexists. split; [now left|reflexivity]. Qed.

Definition both_insert := [(tx 0 1 (Overwrite [frag 0 10 1 [0%Z; 1%Z]] (sch [0%Z; 1%Z]) None), dflt);
   (tx 1 2 (Update [] [] [frag 0 11 1 [0%Z; 1%Z]]), dflt); (tx 1 3 (Update [] [] [frag 0 12 1 [0%Z; 1%Z]]), dflt)].
Definition stored (p : N) : list row := if p =? 10 then [r2 1 10] else if p =? 11 then [r2 9 90] else if p =? 12 then [r2 9 91] else [].
(* two merge inserts of one new key, both accepted: the key is there twice *)
Theorem concurrent_insert_refuted : exists files p h a b src src' m, history (h ++ [a; b]) /\
  man_at h (t_read (e_txn a)) = Some m /\ man_at h (t_read (e_txn b)) = Some m /\ latest h = Some m /\
  unique_keys (p_on p) (contents (table_of files m)) /\ unique_keys (p_on p) src /\ unique_keys (p_on p) src' /\
  visible p src /\ visible p src' /\ visible p (contents (table_of files m)) /\
  inserting_merge files p src m (t_op (e_txn a)) /\ inserting_merge files p src' m (t_op (e_txn b)) /\
  ~ unique_keys (p_on p) (contents (table_of files (e_man b))).
Proof.
  exists stored, upsert, (firstn 1 (hist both_insert)), (nth_entry 1 both_insert), (nth_entry 2 both_insert), [r2 9 90], [r2 9 91], (e_man (nth_entry 0 both_insert)).
  split.
  { assert (E : firstn 1 (hist both_insert) ++ [nth_entry 1 both_insert; nth_entry 2 both_insert] = hist both_insert) by (vm_compute; reflexivity).
    rewrite E. hist_ok. }
  split; [vm_compute; reflexivity|]. split; [vm_compute; reflexivity|]. split; [vm_compute; reflexivity|].
  assert (C : contents (table_of stored (e_man (nth_entry 0 both_insert))) = [r2 1 10]) by (vm_compute; reflexivity). rewrite C.
  split; [repeat constructor|]. split; [repeat constructor|]. split; [repeat constructor|].
  split; [|split; [|split]].
  1-3: intros r Hr; exists 0%nat; split; [cbn; lia|]; cbn in Hr; destruct Hr as [<-|[]]; discriminate.
  split; [|split].
  - exists [full_join false [0%nat] [r2 9 90] (scan (table_of stored (e_man (nth_entry 0 both_insert))))], [frag 0 11 1 [0%Z; 1%Z]].
    split; [cbn [concat]; rewrite app_nil_r; apply Permutation_refl|]. split; [vm_compute; reflexivity|]. split; vm_compute; reflexivity.
  - exists [full_join false [0%nat] [r2 9 91] (scan (table_of stored (e_man (nth_entry 0 both_insert))))], [frag 0 12 1 [0%Z; 1%Z]].
    split; [cbn [concat]; rewrite app_nil_r; apply Permutation_refl|]. split; [vm_compute; reflexivity|]. split; vm_compute; reflexivity.
  - intros U. assert (E : contents (table_of stored (e_man (nth_entry 2 both_insert))) = [r2 1 10; r2 9 90; r2 9 91]) by (vm_compute; reflexivity).
    rewrite E in U. inversion U as [|? ? _ U2]; subst. inversion U2 as [|? ? U3 _]; subst. inversion U3 as [|? ? U4]; subst. discriminate.
Qed.
