(* Concrete schemas that meet the hypotheses of the theorems about ColMapModel. *)
From Coq Require Import List Arith Bool Lia.
From Verif Require Import Lib ColMapModel ColMapProofs ColMapWhole.
Import ListNotations.

Definition list_ (id : nat) (c : field) : field := Fld (at_ id KList) [c].
(* a: leaf, s: struct<x, l: list<struct<y, z>>>, b: leaf *)
Definition schema1 : list field := [leaf 1; struct_ 2 [leaf 3; list_ 4 (struct_ 5 [leaf 6; leaf 7])]; leaf 8].
(* the projection to b and s.l.z, in this order *)
Definition proj1_ : list field := [leaf 8; struct_ 2 [list_ 4 (struct_ 5 [leaf 7])]].
Lemma schema1_ok : Forall f_ok schema1 /\ NoDup (ids schema1) /\ Forall f_ok proj1_ /\ NoDup (ids proj1_).
Proof. split; [|split; [|split]]; try (repeat (apply Forall_cons || apply Forall_nil); cbn; intuition); cbn; repeat (apply NoDup_cons || apply NoDup_nil); cbn; intuition discriminate. Qed.
Lemma proj1_parts : parts proj1_ schema1.
Proof.
  intros f [<-|[<-|[]]].
  - exists (leaf 8). split; [cbn; auto|apply part_refl].
  - eexists. split; [right; left; reflexivity|]. constructor. intros c [<-|[]]. eexists. split; [right; left; reflexivity|]. constructor. intros c [<-|[]]. eexists. split; [left; reflexivity|].
    constructor. intros c [<-|[]]. eexists. split; [right; left; reflexivity|]. apply part_refl.
Qed.
Lemma schema1_unpacked : forall s, no_packed s schema1 /\ no_packed s proj1_ /\ plain s schema1.
Proof. intros s. split; [|split]; intros f Hf; cbn in Hf; decompose [or] Hf; try subst f; try contradiction; destruct s; cbn; try discriminate; auto; split; auto; discriminate. Qed.
Example ids_case20 : read_ids false schema1 proj1_ = Some [(8, 7); (2, 1); (4, 3); (5, 4); (7, 6)]. Proof. reflexivity. Qed.
Example ids_case21 : read_ids true schema1 proj1_ = Some [(8, 4); (7, 3)]. Proof. reflexivity. Qed.
Example ids_case_applies : forall s, exists r, read_ids s schema1 proj1_ = Some r /\ right_columns s schema1 proj1_ r.
Proof.
  intros s. destruct schema1_ok as (A & B & C & D). apply ids_exact; auto; [apply proj1_parts| |destruct s; discriminate]. intros ->. apply schema1_unpacked.
Qed.
Example whole_case : read_whole false schema1 = Some [(1, 0); (2, 1); (3, 2); (4, 3); (5, 4); (6, 5); (7, 6); (8, 7)] /\ read_whole true schema1 = Some [(1, 0); (3, 1); (6, 2); (7, 3); (8, 4)].
Proof. split; reflexivity. Qed.
(* with a packed struct *)
Definition schema2 : list field := [leaf 1; packed_ (Some PTrue) false 2 [leaf 3; leaf 4]; leaf 5].
Lemma schema2_plain : forall s, plain s schema2.
Proof.
  intros s f Hf. cbn in Hf. decompose [or] Hf; try subst f; try contradiction; destruct s; cbn; auto; (split; [reflexivity|]; intros c [<-|[<-|[]]]; reflexivity).
Qed.
Example packed_case : read_whole false schema2 = Some [(1, 0); (2, 1); (5, 2)] /\ read_whole true schema2 = Some [(1, 0); (2, 1); (5, 2)] /\ read_ids false schema2 [leaf 5; packed_ (Some PTrue) false 2 [leaf 4]] = Some [(5, 2); (2, 1)].
Proof. repeat split; reflexivity. Qed.
Example names_case : one_each false schema1 /\ read_names false schema1 proj1_ = read_ids false schema1 proj1_ /\ read_adopted false schema1 proj1_ = read_ids false schema1 proj1_.
Proof. split; [apply schema1_unpacked|split; reflexivity]. Qed.
Example names_case21 : one_each true [leaf 3; leaf 1; leaf 2] /\ read_names true [leaf 3; leaf 1; leaf 2] [leaf 2; leaf 3] = Some [(2, 2); (3, 0)] /\ read_adopted true [leaf 3; leaf 1; leaf 2] [leaf 2; leaf 3] = Some [(2, 2); (3, 0)].
Proof. split; [intros f Hf; cbn in Hf; intuition; now subst f|split; reflexivity]. Qed.
