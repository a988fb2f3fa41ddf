(* Fetching further columns by row id: cases, and what is false (C137). *)
From Coq Require Import String List Bool ZArith Lia.
From Verif Require Import LateModel LateProofs LateWhole.
Import ListNotations.
Local Open Scope Z_scope.
Local Open Scope string_scope.

(* the data of a field: 0 for a struct without nulls *)
Definition one_of (ids : list Z) (i : Z) : bool := existsb (Z.eqb i) ids.
Definition ex_a : @tree nat := T "a" 0 KLeaf 10%nat [].
Definition ex_x : @tree nat := T "x" 2 KLeaf 12%nat [].
Definition ex_y : @tree nat := T "y" 3 KLeaf 13%nat [].
Definition ex_u : @tree nat := T "u" 6 KLeaf 16%nat [].
Definition ex_v : @tree nat := T "v" 7 KLeaf 17%nat [].
Definition ex_b : @tree nat := T "b" 8 KLeaf 18%nat [].
Definition ex_s (d : nat) c : @tree nat := T "s" 1 KStruct d c.
Definition ex_l c : @tree nat := T "l" 4 KList 14%nat [T "item" 5 KStruct 0%nat c].
Definition ex_full (d : nat) : list (@tree nat) := [ex_b; ex_s d [ex_x; ex_y]; ex_a; ex_l [ex_u; ex_v]].
Definition ex_rowid : @tree nat := T "_rowid" (-1) KLeaf 20%nat [].
Definition ex_score : @tree nat := T "_score" (-1) KLeaf 21%nat [].

Ltac nodupt := repeat (constructor; [cbn; intuition discriminate|]); constructor.
Ltac eachin tac := let H := fresh in intros ? H; cbn in H; repeat (destruct H as [<-|H]; [tac|]); destruct H.
Ltac propert := constructor; [cbn; nodupt|first [reflexivity|exact I|eexists; reflexivity]|eachin propert].
Ltac closedt := constructor; [first [left; reflexivity|right; vm_compute; reflexivity]|eachin closedt].
Ltac wholet := constructor; [first [discriminate|intros _; vm_compute; auto]|eachin wholet].
Ltac validt := constructor; [first [discriminate|reflexivity]|eachin validt].

Lemma ex_dataset d : dataset (ex_full d).
Proof. split; [cbn; nodupt|split; [cbn; nodupt|eachin propert]]. Qed.

(* the input has a, s.x, the row id and a score; s, b and l are asked for: s is completed where it is, b and l come at the end *)
Definition ex_input (d : nat) : list (@tree nat) := [ex_score; ex_a; ex_s d [ex_x]; ex_rowid].
Definition ex_has := one_of [0; 1; 2].
Definition ex_ids : list Z := [1; 2; 3; 4; 5; 6; 7; 8].
Lemma ex_input_of d : input_of (ex_full d) ex_has (ex_input d).
Proof.
  split; [cbn; nodupt|split].
  - intros f H. cbn in H. destruct H as [<-|[<-|[<-|[<-|[]]]]]; [right; cbn; intuition discriminate|left; exists ex_a|left; exists (ex_s d [ex_x; ex_y])|right; cbn; intuition discriminate]; (split; [cbn; auto|vm_compute; reflexivity]).
  - intros t H. cbn in H. destruct H as [<-|[<-|[<-|[<-|[]]]]]; vm_compute; try congruence; auto.
Qed.
Example ex_take : take_exec 0%nat (ex_full 0) ex_ids (ex_input 0) = Some [ex_score; ex_a; ex_s 0 [ex_x; ex_y]; ex_rowid; ex_b; ex_l [ex_u; ex_v]] /\
  take_exec 0%nat (ex_full 0) ex_ids (ex_input 0) = Some (wanted (ex_full 0) ex_ids ex_has (ex_input 0)).
Proof.
  split; [vm_compute; reflexivity|]. apply take_columns_exact; [apply ex_dataset|apply ex_input_of|eachin closedt|eachin closedt|cbn; auto|eachin wholet|eachin validt].
Qed.
(* nothing is asked for that the input does not have: the input comes out *)
Example ex_take_nothing : take_exec 0%nat (ex_full 0) [1; 2] (ex_input 0) = Some (ex_input 0).
Proof. vm_compute. reflexivity. Qed.

(* false: what comes out is what was asked for. A struct of which one field is in the input and another is fetched loses its nulls *)
Theorem take_nulls_refuted : exists full ids a input, dataset full /\ input_of full a input /\ (forall t, In t full -> closed (fun i => existsb (Z.eqb i) ids) t) /\ (forall t, In t full -> closed a t) /\
  In "_rowid" (map t_name input) /\ (forall t, In t full -> lists_whole a (fun i => existsb (Z.eqb i) ids && negb (a i)) t) /\
  In (ex_s 9 [ex_x; ex_y]) (wanted full ids a input) /\
  exists out, take_exec 0%nat full ids input = Some out /\ In (ex_s 0 [ex_x; ex_y]) out /\ ~ In (ex_s 9 [ex_x; ex_y]) out.
Proof.
  exists (ex_full 9), ex_ids, ex_has, (ex_input 9). split; [apply ex_dataset|]. split; [apply ex_input_of|]. split; [eachin closedt|]. split; [eachin closedt|]. split; [cbn; auto|]. split; [eachin wholet|].
  split; [vm_compute; auto|]. eexists. split; [vm_compute; reflexivity|]. split; [cbn; auto|]. cbn. intuition discriminate.
Qed.
(* false: a batch has the columns that the node announces. Of a list of structs of which one field is in the input, the other is announced, fetched and thrown away *)
Definition ex_linput : list (@tree nat) := [ex_l [ex_u]; ex_rowid].
Theorem take_list_refuted : exists full ids a input, dataset full /\ input_of full a input /\ (forall t, In t full -> closed (fun i => existsb (Z.eqb i) ids) t) /\ (forall t, In t full -> closed a t) /\
  In "_rowid" (map t_name input) /\ (forall t, In t full -> structs_valid 0%nat t) /\
  take_schema full ids input = Some (wanted full ids a input) /\ take_exec 0%nat full ids input = Some input /\ wanted full ids a input <> input.
Proof.
  exists (ex_full 0), [4; 5; 6; 7], (one_of [4; 5; 6]), ex_linput. split; [apply ex_dataset|]. split.
  { split; [cbn; nodupt|split].
    - intros f H. cbn in H. destruct H as [<-|[<-|[]]]; [|right; cbn; intuition discriminate]. left. exists (ex_l [ex_u; ex_v]). split; [cbn; auto|vm_compute; reflexivity].
    - intros t H. cbn in H. destruct H as [<-|[<-|[<-|[<-|[]]]]]; vm_compute; try congruence; auto. }
  split; [eachin closedt|]. split; [eachin closedt|]. split; [cbn; auto|]. split; [eachin validt|]. split; [vm_compute; reflexivity|]. split; [vm_compute; reflexivity|]. vm_compute. discriminate.
Qed.
(* false: any columns of an input can be completed. A column computed by the plan that is named like one of the dataset's is taken for it *)
Theorem take_name_refuted : exists input, NoDup (map t_name input) /\ In "_rowid" (map t_name input) /\ In (T "b" (-1) KLeaf 33%nat []) input /\
  take_exec 0%nat (ex_full 0) [8] input = Some input.
Proof. exists [T "b" (-1) KLeaf 33%nat []; ex_rowid]. split; [cbn; nodupt|]. split; [cbn; auto|]. split; [cbn; auto|]. vm_compute. reflexivity. Qed.
