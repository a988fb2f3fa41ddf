(* Whole vector indices on concrete data: the theorems' cases and the ones that go wrong. *)
From Coq Require Import List Arith Bool Lia Permutation.
From Verif Require Import Lib PageModel VecIdxModel VecIdxProofs VecIdxWhole.
Import ListNotations.
Local Open Scope nat_scope.

(* vectors are numbers, two centroids, codes of two bytes *)
Definition ex_near (v : nat) : option nat := if v =? 0 then None else Some (v mod 2).
Definition ex_quant (v : nat) : list nat := [v; v + 100].
Definition ex_resid (p v : nat) : nat := v - p.
Definition ex_data : list (list (@row nat)) := [[(10, 4); (11, 7)]; []; [(12, 5); (13, 0); (14, 8)]].
Definition ex_rows (i : nat) : option nat := nth_error [4; 7; 5; 0; 8; 9; 6] (i - 10).
Definition ex_build (pq : bool) (resid : nat -> nat -> nat) := build (fun v => v) ex_near resid ex_quant 2 pq 2 (fun l => l) 2 ex_rows.
Definition ex_optimize (pq : bool) (resid : nat -> nat -> nat) (lookup : nat -> option nat) := optimize (fun v => v) ex_near resid ex_quant 2 pq 2 (fun l => l) 2 lookup.
Definition ex_parts (pq : bool) (x : option vindex) : option (list (list (nat * list nat))) := omap (fun x => map (held pq 2 x) [0; 1]) x.
Lemma ex_near_range : forall v p, ex_near v = Some p -> p < 2.
Proof. intros v p. unfold ex_near. pose proof (Nat.mod_upper_bound v 2 ltac:(lia)) as U. set (q := v mod 2) in *. clearbody q. destruct (v =? 0); intros E; inversion E. subst p. exact U. Qed.

Example ex_built : ex_parts true (ex_build true ex_resid ex_data) = Some [[(10, [4; 104]); (13, [0; 100]); (14, [8; 108])]; [(11, [6; 106]); (12, [4; 104])]].
Proof. vm_compute. reflexivity. Qed.
Example ex_built_hyps : concat ex_data <> [] /\ shuffles 2 ex_data.
Proof. split; [discriminate|]. right. right. discriminate. Qed.
Example ex_optimized : ex_parts true (obind (ex_build true (fun _ v => v) ex_data) (fun x => ex_optimize true (fun _ v => v) ex_rows [] [x] (Some [[(15, 9)]; [(16, 6)]]))) =
  Some [[(10, [4; 104]); (13, [0; 100]); (14, [8; 108]); (16, [6; 106])]; [(11, [7; 107]); (12, [5; 105]); (15, [9; 109])]].
Proof. vm_compute. reflexivity. Qed.
Definition ex_map (i : nat) : option (option nat) := if i =? 10 then Some None else if i =? 12 then None else Some (Some (i + 20)).
Example ex_remapped : ex_parts false (obind (ex_build false (fun _ v => v) ex_data) (remap 2 ex_map)) = Some [[(33, [0; 100]); (34, [8; 108])]; [(31, [7; 107]); (12, [5; 105])]].
Proof. vm_compute. reflexivity. Qed.
Example ex_remapped_pq : ex_parts true (obind (ex_build true (fun _ v => v) ex_data) (remap 2 (fun i => Some (Some (i + 20))))) = Some [[(30, [4; 104]); (33, [0; 100]); (34, [8; 108])]; [(31, [7; 107]); (32, [5; 105])]].
Proof. vm_compute. reflexivity. Qed.

(* ---- what goes wrong ---- *)
(* an index of every row, with the code each row should have *)
Definition right_index {V} (prep : V -> V) nearest resid quant nparts pq m (x : vindex) (rows : list (@row V)) : Prop := forall p, p < nparts -> Permutation (held pq m x p) (want prep nearest resid quant rows p).
(* the first batch of the stream has no rows, although others do *)
Theorem build_refuted : exists (data : list (list (@row nat))) nearest quant, (forall v p, nearest v = Some p -> p < 2) /\ (forall v, length (quant v) = 2) /\ concat data <> [] /\
  build (fun v => v) nearest (fun _ v => v) quant 2 true 2 (fun l => l) 2 (fun _ => None) data = None.
Proof. exists [[]; [(1, 5)]], ex_near, ex_quant. split; [exact ex_near_range|]. split; [reflexivity|]. split; [discriminate|]. vm_compute. reflexivity. Qed.
(* an empty column *)
Theorem build_empty_refuted : forall V prep nearest resid quant nparts pq m sort buffer_size (lookup : nat -> option V), build prep nearest resid quant nparts pq m sort buffer_size lookup [] = None.
Proof.
  intros. unfold build, shuffle_data. cbn [obind]. unfold build_all. set (r := RFiles _ _). rewrite (collect_all _ (fun _ => build_storage quant pq m [] false)) by reflexivity. cbn [obind]. unfold merge_partitions.
  replace (filter _ _) with (@nil storage); [reflexivity|]. symmetry. generalize (seq 0 nparts). induction l as [|a l IH]; [reflexivity|]. cbn [map filter build_storage s_ids]. exact IH.
Qed.
(* the vectors of the merged index are not made residuals again *)
Theorem optimize_residual_refuted : exists (old new : list (list (@row nat))) nearest resid quant lookup x y, (forall v p, nearest v = Some p -> p < 2) /\ (forall v, length (quant v) = 2) /\
  (forall r, In r (concat (old ++ new)) -> lookup (fst r) = Some (snd r)) /\
  build (fun v => v) nearest resid quant 2 true 2 (fun l => l) 2 lookup old = Some x /\ right_index (fun v => v) nearest resid quant 2 true 2 x (concat old) /\
  optimize (fun v => v) nearest resid quant 2 true 2 (fun l => l) 2 lookup (old ++ new) [x] (Some new) = Some y /\ ~ right_index (fun v => v) nearest resid quant 2 true 2 y (concat (old ++ new)).
Proof.
  exists [[(10, 4); (11, 7)]], [[(15, 9)]], ex_near, ex_resid, ex_quant, ex_rows. eexists. eexists. split; [exact ex_near_range|]. split; [reflexivity|]. split; [intros r [<-|[<-|[<-|[]]]]; reflexivity|]. split; [vm_compute; reflexivity|]. split.
  { intros [|[|p]] P; [vm_compute; reflexivity|vm_compute; reflexivity|lia]. }
  split; [vm_compute; reflexivity|]. intros R. specialize (R 1 ltac:(lia)). vm_compute in R. apply (Permutation_in (11, [7; 107])) in R; [|now left]. destruct R as [R|[R|[]]]; discriminate R.
Qed.
(* a row of the index was deleted since *)
Theorem optimize_deleted_refuted : exists (old new : list (list (@row nat))) nearest quant lookup x, (forall v p, nearest v = Some p -> p < 2) /\ (forall v, length (quant v) = 2) /\
  build (fun v => v) nearest (fun _ v => v) quant 2 true 2 (fun l => l) 2 lookup old = Some x /\ (exists i, In i (map fst (concat old)) /\ lookup i = None) /\
  optimize (fun v => v) nearest (fun _ v => v) quant 2 true 2 (fun l => l) 2 lookup new [x] (Some new) = None.
Proof.
  exists [[(10, 4); (11, 7)]], [[(15, 9)]], ex_near, ex_quant, (fun i => if i =? 10 then None else ex_rows i). eexists. split; [exact ex_near_range|]. split; [reflexivity|]. split; [vm_compute; reflexivity|]. split; [exists 10; split; [now left|reflexivity]|]. vm_compute. reflexivity.
Qed.
(* nothing new to index: the whole dataset is added once more *)
Theorem optimize_nothing_new_refuted : exists (old : list (list (@row nat))) nearest quant lookup x y, (forall v p, nearest v = Some p -> p < 2) /\ (forall v, length (quant v) = 2) /\
  build (fun v => v) nearest (fun _ v => v) quant 2 true 2 (fun l => l) 2 lookup old = Some x /\ right_index (fun v => v) nearest (fun _ v => v) quant 2 true 2 x (concat old) /\
  optimize (fun v => v) nearest (fun _ v => v) quant 2 true 2 (fun l => l) 2 lookup old [x] None = Some y /\ held true 2 y 0 = [(10, [4; 104]); (10, [4; 104])].
Proof.
  exists [[(10, 4); (11, 7)]], ex_near, ex_quant, ex_rows. eexists. eexists. split; [exact ex_near_range|]. split; [reflexivity|]. split; [vm_compute; reflexivity|]. split.
  { intros [|[|p]] P; [vm_compute; reflexivity|vm_compute; reflexivity|lia]. }
  split; vm_compute; reflexivity.
Qed.
(* product quantization: codes are stored byte by byte, and rows are dropped from them as if they were stored row by row *)
Theorem remap_pq_refuted : exists x y mapping, (forall p, p < 2 -> sound (load_partition x p)) /\ x_extra x = false /\
  held true 2 x 0 = [(10, [4; 104]); (13, [0; 100]); (14, [8; 108])] /\ mapping 10 = Some None /\ (forall i, i <> 10 -> mapping i = None) /\
  remap 2 mapping x = Some y /\ ~ held true 2 y 0 = [(13, [0; 100]); (14, [8; 108])] /\ map fst (held true 2 y 0) = [13; 14].
Proof.
  exists {| x_ids := [10; 13; 14; 11; 12]; x_codes := [[4; 0]; [8; 104]; [100; 108]; [7; 5]; [107; 105]]; x_extra := false; x_offsets := [0; 3]; x_lengths := [3; 2] |}. eexists. exists (fun i => if i =? 10 then Some None else None). split.
  { intros [|[|p]] P; [vm_compute; reflexivity|vm_compute; reflexivity|lia]. }
  split; [reflexivity|]. split; [vm_compute; reflexivity|]. split; [reflexivity|]. split; [intros i N; apply Nat.eqb_neq in N; now rewrite N|]. split; [vm_compute; reflexivity|]. split; [vm_compute; intros H; discriminate H|vm_compute; reflexivity].
Qed.
Example ex_remap_pq_built : ex_build true (fun _ v => v) ex_data = Some {| x_ids := [10; 13; 14; 11; 12]; x_codes := [[4; 0]; [8; 104]; [100; 108]; [7; 5]; [107; 105]]; x_extra := false; x_offsets := [0; 3]; x_lengths := [3; 2] |}.
Proof. vm_compute. reflexivity. Qed.
(* an index of a single partition cannot be remapped at all *)
Theorem remap_single_refuted : exists (data : list (list (@row nat))) x, concat data <> [] /\ build (fun v => v) (fun _ => Some 0) (fun _ v => v) ex_quant 1 false 2 (fun l => l) 2 (fun _ => None) data = Some x /\ forall mapping, remap 1 mapping x = None.
Proof. exists [[(10, 4); (11, 7)]]. eexists. split; [discriminate|]. split; [vm_compute; reflexivity|]. intros mapping. reflexivity. Qed.
(* nor one whose rows were all deleted *)
Theorem remap_gone_refuted : exists x mapping, (forall p, p < 2 -> sound (load_partition x p)) /\ x_extra x = false /\ map fst (held false 2 x 0 ++ held false 2 x 1) = [10; 11] /\ (forall i, mapping i = Some None) /\ remap 2 mapping x = None.
Proof.
  exists {| x_ids := [10; 11]; x_codes := [[4; 104]; [7; 107]]; x_extra := false; x_offsets := [0; 1]; x_lengths := [1; 1] |}, (fun _ => Some None). split; [intros [|[|p]] P; [vm_compute; reflexivity|vm_compute; reflexivity|lia]|]. repeat split.
Qed.
