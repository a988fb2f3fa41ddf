(* What the check of non-null fields guarantees. *)
From Coq Require Import String List Arith NArith Bool Lia.
From Verif Require Import Lib PageModel NotNullModel.
Import ListNotations.
Local Open Scope nat_scope.

(* ---- the rows of an array, and when they fit a field ---- *)
Inductive value := VNull | VItem | VStruct (l : list value) | VList (l : list value).
Definition valid_at (v : option (list bool)) (i : nat) : bool := match v with None => true | Some l => nth i l false end.
Fixpoint row (a : narr) (i : nat) : value :=
  match a with
  | ALeaf _ v => if valid_at v i then VItem else VNull
  | ANulls _ => VNull
  | ADict codes v d => if valid_at v i && valid_at d (nth i codes 0) then VItem else VNull
  | AStruct _ v cs => if valid_at v i then VStruct (map (fun c => row c i) cs) else VNull
  | AList rs v c => if valid_at v i then VList (map (row c) (seq (fst (nth i rs (0, 0))) (snd (nth i rs (0, 0)) - fst (nth i rs (0, 0))))) else VNull
  end.
Definition rows (a : narr) : list value := map (row a) (seq 0 (alen a)).
(* a null needs a nullable field; below a null there is nothing to fit *)
Inductive fits : nfield -> value -> Prop :=
| fits_null : forall n cs, fits (NF n true cs) VNull
| fits_item : forall f, fits f VItem
| fits_struct : forall n b cs vs, Forall2 fits cs vs -> fits (NF n b cs) (VStruct vs)
| fits_list : forall n b c vs, Forall (fits c) vs -> fits (NF n b [c]) (VList vs).
(* arrays of the type of the field, with buffers of their length *)
Definition valid_len (v : option (list bool)) (n : nat) : Prop := match v with None => True | Some l => length l = n end.
Inductive typed : nfield -> narr -> Prop :=
| t_leaf : forall n b k v, valid_len v k -> typed (NF n b []) (ALeaf k v)
| t_nulls : forall n b k, typed (NF n b []) (ANulls k)
| t_dict : forall n b codes v d, valid_len v (length codes) -> (forall i, i < length codes -> valid_at v i = true -> match d with None => True | Some l => nth i codes 0 < length l end) -> typed (NF n b []) (ADict codes v d)
| t_struct : forall n b fs k v cs, valid_len v k -> Forall2 typed fs cs -> Forall (fun c => alen c = k) cs -> typed (NF n b fs) (AStruct k v cs)
| t_list : forall n b f rs v c, valid_len v (length rs) -> typed f c -> Forall (fun r => fst r <= snd r <= alen c) rs -> typed (NF n b [f]) (AList rs v c).
(* nulls are in the null buffers *)
Fixpoint open_nulls (a : narr) : Prop :=
  match a with
  | ALeaf _ _ => True
  | ANulls n => n = 0
  | ADict _ _ d => nulls_in d = 0
  | AStruct _ _ cs => (fix all (l : list narr) : Prop := match l with [] => True | c :: t => open_nulls c /\ all t end) cs
  | AList _ _ c => open_nulls c
  end.
(* no array has nulls in rows that its parents do not show; [R] are the rows shown of this one *)
Fixpoint shown (R : nat -> Prop) (a : narr) : Prop :=
  (forall i, i < alen a -> valid_at (anulls a) i = false -> R i) /\
  match a with
  | AStruct _ v cs => (fix all (l : list narr) : Prop := match l with [] => True | c :: t => shown (fun i => R i /\ valid_at v i = true) c /\ all t end) cs
  | AList rs v c => shown (fun j => exists i r, nth_error rs i = Some r /\ R i /\ valid_at v i = true /\ fst r <= j < snd r) c
  | _ => True
  end.

Lemma nulls_zero : forall v i k, valid_len v k -> i < k -> nulls_in v = 0 -> valid_at v i = true.
Proof.
  intros [l|] i k L B H; [|reflexivity]. cbn in *. subst k. revert i B H. induction l as [|x l IH]; intros i B H; [cbn in B; lia|]. destruct x; cbn [filter negb] in H; [|discriminate H]. destruct i; [reflexivity|]. cbn in *. apply IH; [lia|exact H].
Qed.
Lemma nulls_some : forall v k, valid_len v k -> nulls_in v <> 0 -> exists i, i < k /\ valid_at v i = false.
Proof.
  intros [l|] k L H; [|cbn in H; congruence]. cbn in *. subst k. induction l as [|x l IH]; [cbn in H; congruence|]. destruct x; cbn [filter negb] in H.
  - destruct (IH H) as (i & B & V). exists (S i). cbn. split; [lia|exact V].
  - exists 0. cbn. split; [lia|reflexivity].
Qed.
Lemma typed_valid : forall f a, typed f a -> valid_len (anulls a) (alen a).
Proof. intros f a T. inversion T; subst; cbn; auto. Qed.
Section FieldInd.
  Variable P : nfield -> Prop.
  Hypothesis H : forall n b cs, Forall P cs -> P (NF n b cs).
  Fixpoint nfield_ind' (f : nfield) : P f := let '(NF n b cs) := f in H n b cs ((fix all (l : list nfield) : Forall P l := match l with [] => Forall_nil P | x :: t => Forall_cons x (nfield_ind' x) (all t) end) cs).
End FieldInd.
Lemma verify_eq : forall n b fs a, verify (NF n b fs) a = (b || (null_count a =? 0)) && forallb (fun p => verify (fst p) (snd p)) (combine fs (child_data a)).
Proof. intros n b fs a. cbn [verify]. f_equal. generalize (child_data a) as cs. induction fs as [|f fs IH]; intros [|c cs]; cbn; auto. now rewrite IH. Qed.
Lemma verify_children : forall fs cs, length fs = length cs -> forallb (fun p => verify (fst p) (snd p)) (combine fs cs) = true <-> Forall2 (fun f c => verify f c = true) fs cs.
Proof.
  induction fs as [|f fs IH]; intros [|c cs] L; try discriminate L; [split; [constructor|reflexivity]|]. injection L as L. cbn [combine forallb fst snd]. rewrite andb_true_iff, (IH cs L). split; [intros [A B]; now constructor|intros H; inversion H; subst; auto].
Qed.
Lemma Forall2_size {A B} : forall (P : A -> B -> Prop) l m, Forall2 P l m -> length l = length m.
Proof. induction 1; cbn; congruence. Qed.

(* what the check accepts has no nulls where they are not allowed *)
Theorem verify_sound : forall f a, typed f a -> open_nulls a -> verify f a = true -> Forall (fits f) (rows a).
Proof.
  induction f as [n b fs IH] using nfield_ind'. intros a T O V. apply Forall_forall. intros x Hx. apply in_map_iff in Hx as (i & <- & Hi). apply in_seq in Hi as [_ Hi]. cbn [plus] in Hi.
  rewrite verify_eq in V. apply andb_prop in V as [V1 V2]. pose proof (typed_valid _ _ T) as VL.
  assert (NN : valid_at (anulls a) i = false -> b = true). { intros Z. destruct b; [reflexivity|]. cbn [orb] in V1. apply Nat.eqb_eq in V1. rewrite (nulls_zero _ _ _ VL Hi V1) in Z. discriminate Z. }
  inversion T as [n0 b0 k v V0|n0 b0 k|n0 b0 codes v d V0 D0|n0 b0 fs0 k v cs V0 TCs LCs|n0 b0 f0 rs v c V0 TCl RC]; subst; cbn [row anulls alen child_data] in *.
  - destruct (valid_at v i) eqn:E; [constructor|]. rewrite (NN eq_refl). constructor.
  - cbn in O. lia.
  - destruct (valid_at v i) eqn:E; [|cbn; rewrite (NN eq_refl); constructor]. replace (valid_at d (nth i codes 0)) with true; [constructor|].
    cbn [open_nulls] in O. destruct d as [l|]; [|reflexivity]. symmetry. apply (nulls_zero (Some l) _ (length l)); [reflexivity| |exact O]. exact (D0 i Hi E).
  - destruct (valid_at v i) eqn:E; [|rewrite (NN eq_refl); constructor]. constructor. rewrite verify_children in V2 by (eapply Forall2_size; eassumption).
    cbn [open_nulls] in O. clear NN V1 VL T. clear V0. revert cs TCs LCs V2 O. induction IH as [|f fs Hf _ IHs]; intros cs TC LC V2 O; inversion TC as [|f' c' fs' cs' TC0 TC1]; subst; [constructor|]. inversion V2 as [|? ? ? ? W0 W1]; subst. apply Forall_cons_iff in LC as [LC0 LC]. destruct O as [O0 O].
    cbn [map]. constructor; [|apply IHs; assumption]. specialize (Hf _ TC0 O0 W0). rewrite Forall_forall in Hf. apply Hf. apply in_map_iff. exists i. split; [reflexivity|]. apply in_seq. lia.
  - destruct (valid_at v i) eqn:E; [|rewrite (NN eq_refl); constructor]. constructor. cbn [combine forallb fst snd] in V2. rewrite andb_true_r in V2. apply Forall_cons_iff in IH as [IH _]. cbn [open_nulls] in O. specialize (IH _ TCl O V2).
    rewrite Forall_forall in IH. apply Forall_forall. intros x Hx. apply in_map_iff in Hx as (j & <- & Hj). apply in_seq in Hj. apply IH. apply in_map_iff. exists j. split; [reflexivity|]. apply in_seq. rewrite Forall_forall in RC. specialize (RC (nth i rs (0, 0)) (nth_In _ _ Hi)). lia.
Qed.
(* what has no nulls where they are not allowed is accepted, when no nulls are hidden *)
Lemma verify_complete_shown : forall f a R, typed f a -> shown R a -> (forall i, i < alen a -> R i -> fits f (row a i)) -> verify f a = true.
Proof.
  induction f as [n b fs IH] using nfield_ind'. intros a R T S F. rewrite verify_eq. pose proof (typed_valid _ _ T) as VL. apply andb_true_intro. split.
  - destruct b; [reflexivity|]. cbn [orb]. apply Nat.eqb_eq. unfold null_count. destruct (Nat.eq_dec (nulls_in (anulls a)) 0) as [E|E]; [exact E|exfalso].
    destruct (nulls_some _ _ VL E) as (i & Bi & Vi). assert (Ri : R i) by (destruct a; cbn [shown] in S; destruct S as [S _]; apply S; assumption). specialize (F i Bi Ri).
    assert (Z : row a i = VNull) by (destruct a; cbn [row anulls] in *; rewrite ?Vi; try reflexivity). rewrite Z in F. inversion F.
  - inversion T as [n0 b0 k v V0|n0 b0 k|n0 b0 codes v d V0 D0|n0 b0 fs0 k v cs V0 TCs LCs|n0 b0 f0 rs v c V0 TCl RC]; subst; cbn [child_data].
    + reflexivity.
    + reflexivity.
    + reflexivity.
    + rewrite verify_children by (eapply Forall2_size; eassumption). cbn [shown anulls alen] in S. destruct S as [S0 S]. clear T VL.
      assert (F' : forall i, i < k -> (R i /\ valid_at v i = true) -> Forall2 (fun f c => fits f (row c i)) fs cs).
      { intros i Bi [Ri Vi]. specialize (F i Bi Ri). cbn [row] in F. rewrite Vi in F. inversion F as [| |? ? ? ? FF|]; subst. clear - FF. remember (map (fun c => row c i) cs) as m. revert cs Heqm. induction FF; intros [|c cs] E; try discriminate E; constructor; injection E as E1 E2; subst; auto. }
      clear F S0 V0. revert cs TCs LCs S F'. induction IH as [|f fs Hf _ IHs]; intros cs TC LC S F'; inversion TC as [|f' c' fs' cs' TC0 TC1]; subst; [constructor|]. apply Forall_cons_iff in LC as [LC0 LC]. destruct S as [S0 S]. constructor.
      * eapply Hf; [exact TC0|exact S0|]. intros i Bi Ri. rewrite LC0 in Bi. specialize (F' i Bi Ri). inversion F'; subst. assumption.
      * apply IHs; [assumption|exact LC|exact S|]. intros i Bi Ri. specialize (F' i Bi Ri). inversion F'; subst. assumption.
    + cbn [combine forallb fst snd]. rewrite andb_true_r. apply Forall_cons_iff in IH as [IH _]. cbn [shown] in S. destruct S as [_ S]. eapply IH; [exact TCl|exact S|]. intros j Bj (i & r & Hr & Ri & Vi & Bij). assert (Li : i < length rs) by (apply nth_error_Some; congruence).
      specialize (F i Li Ri). cbn [row] in F. rewrite Vi in F. rewrite (nth_error_nth _ _ _ Hr) in F. inversion F as [| | |? ? ? ? FF]; subst. rewrite Forall_forall in FF. apply FF. apply in_map_iff. exists j. split; [reflexivity|]. apply in_seq. lia.
Qed.
Theorem verify_complete : forall f a, typed f a -> shown (fun _ => True) a -> Forall (fits f) (rows a) -> verify f a = true.
Proof. intros f a T S F. eapply verify_complete_shown; eauto. intros i Bi _. rewrite Forall_forall in F. apply F. apply in_map_iff. exists i. split; [reflexivity|]. apply in_seq. lia. Qed.

(* ---- batches ---- *)
(* every column of the batch belongs to the field at its place *)
Definition aligned (schema : list nfield) (b : batch) : Prop := exists more, map fst b = map nf_name schema ++ more.
Definition fitting (schema : list nfield) (b : batch) : Prop := Forall (fun f => exists a, column_by_name b (nf_name f) = Some a /\ Forall (fits f) (rows a)) schema.
Definition each_column (P : nfield -> narr -> Prop) (schema : list nfield) (b : batch) : Prop := forall f a, In f schema -> column_by_name b (nf_name f) = Some a -> P f a.
Lemma column_here : forall schema b, NoDup (map nf_name schema) -> aligned schema b -> exists cs more, b = combine (map nf_name schema) cs ++ more /\ length cs = length schema /\ forall f a, In (f, a) (combine schema cs) -> column_by_name b (nf_name f) = Some a.
Proof.
  induction schema as [|f schema IH]; intros b ND [more E]; [exists [], b; repeat split; intros f a []|]. destruct b as [|[n a] b]; [discriminate E|]. cbn [map app fst] in E. injection E as E1 E2. cbn [map] in ND. apply NoDup_cons_iff in ND as [NI ND].
  destruct (IH b ND (ex_intro _ more E2)) as (cs & m & Eb & L & H). exists (a :: cs), m. cbn [map combine app length]. split; [now rewrite <- E1, Eb|]. split; [lia|]. intros g c [G|G].
  - injection G as <- <-. unfold column_by_name. cbn [find fst]. rewrite E1, String.eqb_refl. reflexivity.
  - specialize (H g c G). unfold column_by_name in *. cbn [find fst]. destruct (String.eqb_spec n (nf_name g)) as [Q|Q]; [|exact H]. exfalso. apply NI. rewrite <- E1, Q. apply in_combine_l in G. now apply in_map.
Qed.
Lemma verify_batch_eq : forall schema cs more, length cs = length schema -> verify_batch schema (combine (map nf_name schema) cs ++ more) = forallb (fun p => verify (fst p) (snd p)) (combine schema cs).
Proof. induction schema as [|f schema IH]; intros [|c cs] more L; try discriminate L; [destruct more; reflexivity|]. cbn in *. rewrite IH by lia. reflexivity. Qed.
Lemma combine_in {A B} : forall (l : list A) (m : list B) x, length m = length l -> In x l -> exists y, In (x, y) (combine l m).
Proof. induction l as [|a l IH]; intros [|b m] x L H; try discriminate L; [destruct H|]. destruct H as [->|H]; [exists b; now left|]. destruct (IH m x) as [y Hy]; [cbn in L; lia|exact H|]. exists y. now right. Qed.
Theorem batch_sound : forall schema b n stored, NoDup (map nf_name schema) -> aligned schema b -> each_column (fun f a => typed f a /\ open_nulls a) schema b ->
  write_batch schema b n = Some stored -> n <> 0 -> fitting schema b /\ Forall2 (fun f a => Forall (fits f) (rows a)) schema stored.
Proof.
  intros schema b n stored ND AL EC H N0. unfold write_batch in H. destruct (verify_batch schema b) eqn:V; [|discriminate H]. replace (n =? 0) with false in H by (symmetry; now apply Nat.eqb_neq). destruct (4294967295 <? N.of_nat n)%N; [discriminate H|].
  destruct (column_here schema b ND AL) as (cs & more & Eb & L & C). assert (G : Forall (fun f => exists a, column_by_name b (nf_name f) = Some a /\ Forall (fits f) (rows a)) schema).
  { rewrite Eb, verify_batch_eq in V by exact L. rewrite forallb_forall in V. apply Forall_forall. intros f Hf. destruct (combine_in schema cs f L Hf) as [a Ha]. exists a. specialize (C f a Ha). split; [exact C|]. destruct (EC f a Hf C) as [T O]. apply verify_sound; auto. apply (V (f, a) Ha). }
  split; [exact G|]. clear V C EC AL ND L Eb cs more. revert stored H. induction G as [|f schema (a & Ca & Fa) G IH]; intros stored H; [injection H as <-; constructor|]. rewrite Ca in H. cbn [obind] in H. match type of H with omap _ ?t = _ => destruct t as [l|] eqn:E end; [|discriminate H]. injection H as <-. constructor; [exact Fa|apply IH; reflexivity].
Qed.
Theorem batch_complete : forall schema b n, NoDup (map nf_name schema) -> aligned schema b -> each_column (fun f a => typed f a /\ shown (fun _ => True) a) schema b ->
  fitting schema b -> (N.of_nat n < 4294967296)%N -> exists stored, write_batch schema b n = Some stored.
Proof.
  intros schema b n ND AL EC F LN. unfold write_batch. destruct (column_here schema b ND AL) as (cs & more & Eb & L & C). assert (V : verify_batch schema b = true).
  { rewrite Eb, verify_batch_eq by exact L. apply forallb_forall. intros [f a] Ha. cbn [fst snd]. pose proof (in_combine_l _ _ _ _ Ha) as Hf. specialize (C f a Ha). destruct (EC f a Hf C) as [T S]. apply verify_complete; auto.
    unfold fitting in F. rewrite Forall_forall in F. destruct (F f Hf) as (a' & C' & Fa). rewrite C in C'. injection C' as <-. exact Fa. }
  rewrite V. destruct (n =? 0); [eauto|]. replace (4294967295 <? N.of_nat n)%N with false by (symmetry; apply N.ltb_ge; lia). clear - F. induction F as [|f schema (a & Ca & _) F [l IH]]; [eauto|]. rewrite Ca. cbn [obind]. rewrite IH. cbn [omap]. eauto.
Qed.

(* ---- where it is false ---- *)
Definition leaf_f (n : string) (b : bool) : nfield := NF n b [].
Ltac fit := repeat (first [apply fits_null|apply fits_item|apply fits_struct|apply fits_list|apply Forall2_nil|apply Forall2_cons|apply Forall_nil|apply Forall_cons]).
(* columns in another order than the schema: nulls of a non-null field are stored *)
Theorem order_accepts_refuted : exists schema b stored, NoDup (map nf_name schema) /\ each_column typed schema b /\ each_column (fun _ a => open_nulls a) schema b /\ write_batch schema b 1 = Some stored /\ exists f a, In (f, a) (combine schema stored) /\ nf_nullable f = false /\ In VNull (rows a).
Proof.
  exists [leaf_f "a" false; leaf_f "b" true], [("b", ALeaf 1 None); ("a", ALeaf 1 (Some [false]))]%string. eexists. split; [repeat constructor; cbn; intuition discriminate|]. split; [|split; [|split; [vm_compute; reflexivity|]]].
  - intros f a [<-|[<-|[]]] H; vm_compute in H; injection H as <-; constructor; cbn; auto.
  - intros f a [<-|[<-|[]]] H; vm_compute in H; injection H as <-; exact Logic.I.
  - exists (leaf_f "a" false), (ALeaf 1 (Some [false])). split; [now left|]. split; [reflexivity|]. now left.
Qed.
(* ... and batches without such nulls are refused *)
Theorem order_refuses_refuted : exists schema b, NoDup (map nf_name schema) /\ each_column (fun f a => typed f a /\ shown (fun _ => True) a) schema b /\ fitting schema b /\ write_batch schema b 1 = None.
Proof.
  exists [leaf_f "a" false; leaf_f "b" true], [("b", ALeaf 1 (Some [false])); ("a", ALeaf 1 None)]%string. split; [repeat constructor; cbn; intuition discriminate|]. split; [|split; [|reflexivity]].
  - intros f a [<-|[<-|[]]] H; vm_compute in H; injection H as <-; (split; [constructor; cbn; auto|cbn; auto]).
  - constructor; [|constructor; [|constructor]]; (eexists; split; [vm_compute; reflexivity|]); cbn; fit.
Qed.
(* nulls of the null type, and of the entries of a dictionary, are not seen *)
Theorem hidden_nulls_refuted : exists f1 a1 f2 a2, (typed f1 a1 /\ nf_nullable f1 = false /\ verify f1 a1 = true /\ rows a1 = [VNull]) /\ (typed f2 a2 /\ nf_nullable f2 = false /\ verify f2 a2 = true /\ rows a2 = [VItem; VNull]).
Proof.
  exists (leaf_f "a" false), (ANulls 1), (leaf_f "a" false), (ADict [0; 1] None (Some [true; false])). split; (split; [constructor; cbn; auto|]); repeat split. intros [|[|i]] H _; cbn in *; lia.
Qed.
(* a null struct with a null child, and an item outside of a sliced list: batches that fit are refused *)
Theorem parent_null_refuted : exists f a, typed f a /\ Forall (fits f) (rows a) /\ verify f a = false.
Proof. exists (NF "s" true [leaf_f "a" false]), (AStruct 2 (Some [true; false]) [ALeaf 2 (Some [true; false])]). split; [repeat constructor|]. split; [cbn; fit|reflexivity]. Qed.
Theorem sliced_list_refuted : exists f a, typed f a /\ anulls a = None /\ Forall (fits f) (rows a) /\ verify f a = false.
Proof. exists (NF "l" false [leaf_f "item" false]), (AList [(1, 2)] None (ALeaf 2 (Some [false; true]))). split; [repeat constructor|]. split; [reflexivity|]. split; [cbn; fit|reflexivity]. Qed.
