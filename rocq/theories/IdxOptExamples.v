(* Lists of indices on concrete data: the theorems' cases and the ones that go wrong. *)
From Coq Require Import List Arith Bool Lia Permutation.
From Verif Require Import Lib IdxOptModel IdxOptProofs.
Import ListNotations.
Local Open Scope nat_scope.

Definition ex_f0 : frag := {| f_id := 0; f_rows := [1; 2] |}.
Definition ex_f1 : frag := {| f_id := 1; f_rows := [11; 12; 13] |}.
Definition ex_f2 : frag := {| f_id := 2; f_rows := [21] |}.
Definition ex_d0 : ent := {| e_uuid := 100; e_name := 7; e_field := 3; e_vector := true; e_v3 := true; e_bitmap := Some [0]; e_rows := [1; 2] |}.
Definition ex_d1 : ent := {| e_uuid := 101; e_name := 7; e_field := 3; e_vector := true; e_v3 := true; e_bitmap := Some [1]; e_rows := [11; 12; 13] |}.
Definition ex_s : ent := {| e_uuid := 102; e_name := 8; e_field := 4; e_vector := false; e_v3 := false; e_bitmap := Some [0; 1]; e_rows := [1; 2; 11; 12; 13] |}.
Definition ex_frs : list frag := [ex_f0; ex_f1; ex_f2].
Definition ex_all : list ent := [ex_d0; ex_s; ex_d1].
Definition ex_fresh (n : nat) : nat := 200 + n.

Lemma ex_well : well ex_all.
Proof.
  intros n. split.
  - intros x. unfold coverers, ex_all. destruct (Nat.eq_dec n 7) as [->|N7]; [destruct x as [|[|x]]; cbn; lia|]. destruct (Nat.eq_dec n 8) as [->|N8]; [destruct x as [|[|x]]; cbn; lia|]. cbn [filter e_name ex_d0 ex_s ex_d1]. rewrite (proj2 (Nat.eqb_neq 7 n)), (proj2 (Nat.eqb_neq 8 n)) by lia. cbn. lia.
  - intros e [<-|[<-|[<-|[]]]] E V; try discriminate V. cbn in E. subst n. reflexivity.
Qed.
Lemma ex_honest : forall e, In e ex_all -> honest ex_frs e.
Proof. intros e [<-|[<-|[<-|[]]]]; vm_compute; reflexivity. Qed.
(* the last delta is merged with the new fragment, the first is kept *)
Example ex_optimized : optimize_indices ex_frs ex_all 1 ex_fresh [7; 8] ex_all =
  Some [ex_d0; {| e_uuid := 207; e_name := 7; e_field := 3; e_vector := true; e_v3 := true; e_bitmap := Some [2; 1; 1]; e_rows := [11; 12; 13; 21] |};
    {| e_uuid := 208; e_name := 8; e_field := 4; e_vector := false; e_v3 := false; e_bitmap := Some [2; 0; 1; 0; 1]; e_rows := [1; 2; 11; 12; 13; 21] |}].
Proof. vm_compute. reflexivity. Qed.
(* a new delta, and nothing merged; another writer's index stays *)
Example ex_delta : optimize_indices ex_frs ex_all 0 ex_fresh [7] (ex_all ++ [{| e_uuid := 300; e_name := 9; e_field := 4; e_vector := false; e_v3 := false; e_bitmap := Some [0]; e_rows := [1; 2] |}]) =
  Some [ex_s; {| e_uuid := 300; e_name := 9; e_field := 4; e_vector := false; e_v3 := false; e_bitmap := Some [0]; e_rows := [1; 2] |}; ex_d0; ex_d1; {| e_uuid := 207; e_name := 7; e_field := 3; e_vector := true; e_v3 := true; e_bitmap := Some [2]; e_rows := [21] |}].
Proof. vm_compute. reflexivity. Qed.
Example ex_uncovered : forall n e, In n [7; 8] -> In e ex_all -> e_name e = n -> e_vector e = true -> e_v3 e = true -> exists f, In f ex_frs /\ coverers ex_all n (f_id f) = [].
Proof. intros n e [<-|[<-|[]]] _ _ _ _; exists ex_f2; (split; [right; right; now left|reflexivity]). Qed.
Example ex_stats : index_statistics ex_frs ex_all 7 = Some {| i_frags := 2; i_other_frags := 1; i_rows := 5; i_other_rows := 1 |}.
Proof. vm_compute. reflexivity. Qed.
Example ex_dropped : drop_index ex_all 7 ex_all = Some [ex_s].
Proof. vm_compute. reflexivity. Qed.
Example ex_created : exists r, create_index ex_frs ex_all 7 3 true true true 400 ex_all = Some [ex_s; r] /\ create_index ex_frs ex_all 7 3 true true false 400 ex_all = None.
Proof. eexists. split; vm_compute; reflexivity. Qed.
(* an index is made, new rows come, one writer optimizes it and a second, who has not seen that, optimizes it too *)
Example ex_history : exists a b c, history [c; b; a; []] /\ map e_bitmap a = [Some [0; 1]] /\ map e_bitmap b = [Some [0; 1]; Some [2]] /\ map e_bitmap c = [Some [2; 0; 1; 0; 1]].
Proof.
  assert (N : NoDup [7]) by (apply NoDup_cons; [intros []|apply NoDup_nil]).
  pose proof (h_create [ex_f0; ex_f1] [] 7 3 true true false 1 [] [] _ h_start ltac:(now left) eq_refl) as H. vm_compute in H.
  match type of H with history (?a :: ?o) => pose proof (h_optimize ex_frs a 0 (fun _ => 2) [7] a o _ H ltac:(now left) N eq_refl) as H2; vm_compute in H2;
    match type of H2 with history (?b :: _) => pose proof (h_optimize ex_frs a 1 (fun _ => 3) [7] b (a :: o) _ H2 ltac:(right; now left) N eq_refl) as H3; vm_compute in H3 end end.
  eexists. eexists. eexists. split; [exact H3|]. split; [reflexivity|]. split; reflexivity.
Qed.

(* ---- what goes wrong ---- *)
(* no new fragments: a delta that covers none and holds every row, or the rows of the last delta twice *)
Theorem optimize_nothing_new_refuted : exists frs l, well l /\ (forall e, In e l -> honest frs e) /\
  (exists res, optimize_indices frs l 0 ex_fresh [7] l = Some res /\ exists e, In e res /\ ~ honest frs e) /\ (exists res, optimize_indices frs l 1 ex_fresh [7] l = Some res /\ exists e, In e res /\ ~ honest frs e).
Proof.
  exists [ex_f0; ex_f1], ex_all. split; [exact ex_well|]. split; [intros e [<-|[<-|[<-|[]]]]; vm_compute; reflexivity|]. split; eexists; (split; [vm_compute; reflexivity|]).
  - eexists. split; [right; right; right; left; reflexivity|]. intros P. apply Permutation_length in P. vm_compute in P. discriminate P.
  - eexists. split; [right; right; left; reflexivity|]. intros P. apply Permutation_length in P. vm_compute in P. discriminate P.
Qed.
(* a row of the last delta was deleted *)
Theorem optimize_deleted_refuted : exists frs l, well l /\ (forall e, In e l -> honest frs e) /\ optimize_indices frs l 1 ex_fresh [7] l = None.
Proof.
  exists [ex_f0; {| f_id := 1; f_rows := [11; 13] |}; ex_f2], ex_all. split; [exact ex_well|]. split; [intros e [<-|[<-|[<-|[]]]]; vm_compute; reflexivity|]. vm_compute. reflexivity.
Qed.
(* an index is dropped while another writer optimizes it: whichever commits last, the index is there afterwards *)
Theorem drop_race_refuted : exists frs l, well l /\ (forall e, In e l -> honest frs e) /\
  (exists a b, drop_index l 7 l = Some a /\ optimize_indices frs l 0 ex_fresh [7] a = Some b /\ by_name 7 a = [] /\ by_name 7 b <> []) /\
  (exists a b, optimize_indices frs l 2 ex_fresh [7] l = Some a /\ drop_index l 7 a = Some b /\ by_name 7 b <> []).
Proof.
  exists ex_frs, ex_all. split; [exact ex_well|]. split; [exact ex_honest|]. split; eexists; eexists.
  - split; [vm_compute; reflexivity|]. split; [vm_compute; reflexivity|]. split; [vm_compute; reflexivity|vm_compute; discriminate].
  - split; [vm_compute; reflexivity|]. split; [vm_compute; reflexivity|vm_compute; discriminate].
Qed.
(* two writers create an index of one name without asking to replace one: both succeed, and the second replaces the first *)
Theorem create_race_refuted : exists frs a b, create_index frs [] 7 3 true true false 1 [] = Some a /\ create_index frs [] 7 4 false false false 2 a = Some b /\ map e_field (by_name 7 a) = [3] /\ map e_field b = [4].
Proof. exists ex_frs. eexists. eexists. split; [vm_compute; reflexivity|]. split; [vm_compute; reflexivity|]. split; vm_compute; reflexivity. Qed.
(* an old index that does not say which fragments it covers *)
Theorem optimize_old_refuted : exists frs l, well l /\ optimize_indices frs l 1 ex_fresh [7] l = None /\ exists e, In e l /\ e_name e = 7 /\ e_rows e = rows_of frs.
Proof.
  exists [ex_f0], [{| e_uuid := 100; e_name := 7; e_field := 3; e_vector := true; e_v3 := false; e_bitmap := None; e_rows := [1; 2] |}]. split.
  - intros n. split; [intros x; unfold coverers; cbn [filter e_name]; destruct (7 =? n); cbn; lia|]. intros e [<-|[]] _ V. discriminate V.
  - split; [vm_compute; reflexivity|]. eexists. split; [left; reflexivity|]. split; reflexivity.
Qed.
