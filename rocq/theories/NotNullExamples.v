(* A batch that meets the hypotheses of the theorems about NotNullModel. *)
From Coq Require Import String List Arith NArith Bool Lia.
From Verif Require Import Lib PageModel NotNullModel NotNullProofs.
Import ListNotations.
Local Open Scope string_scope.

(* x: int not null, s: struct<a: list<int not null>, d: dictionary not null>; the second struct is null *)
Definition nn_schema : list nfield := [leaf_f "x" false; NF "s" true [NF "a" true [leaf_f "item" false]; leaf_f "d" false]].
Definition nn_batch : batch :=
  [("x", ALeaf 2 None); ("s", AStruct 2 (Some [true; false]) [AList [(0, 2); (2, 2)] None (ALeaf 2 None); ADict [1; 0] None (Some [true; true])])]%nat.
Example nn_meets : NoDup (map nf_name nn_schema) /\ aligned nn_schema nn_batch /\ each_column (fun f a => typed f a /\ open_nulls a) nn_schema nn_batch /\
  each_column (fun f a => typed f a /\ shown (fun _ => True) a) nn_schema nn_batch /\ fitting nn_schema nn_batch.
Proof.
  assert (T : each_column typed nn_schema nn_batch).
  { intros f a [<-|[<-|[]]] H; vm_compute in H; injection H as <-; [constructor; exact Logic.I|]. constructor; [reflexivity| |repeat constructor]. constructor; [|constructor; [|constructor]].
    - constructor; [exact Logic.I|constructor; exact Logic.I|]. constructor; [cbn; lia|constructor; [cbn; lia|constructor]].
    - constructor; [exact Logic.I|]. intros [|[|i]] H _; cbn in *; lia. }
  split; [repeat constructor; cbn; intuition discriminate|]. split; [exists []; reflexivity|]. split; [|split].
  - intros f a Hf H. split; [now apply T|]. destruct Hf as [<-|[<-|[]]]; vm_compute in H; injection H as <-; cbn; auto.
  - intros f a Hf H. split; [now apply T|]. destruct Hf as [<-|[<-|[]]]; vm_compute in H; injection H as <-; cbn; [intuition discriminate|]. repeat split; intros; try discriminate; auto.
  - constructor; [|constructor; [|constructor]]; (eexists; split; [vm_compute; reflexivity|]); cbn; fit.
Qed.
Example nn_written : write_batch nn_schema nn_batch 2 = Some (map snd nn_batch).
Proof. vm_compute. reflexivity. Qed.
(* with a null in x it is refused *)
Example nn_refused : write_batch nn_schema (("x", ALeaf 2 (Some [true; false])) :: tl nn_batch) 2 = None.
Proof. vm_compute. reflexivity. Qed.
