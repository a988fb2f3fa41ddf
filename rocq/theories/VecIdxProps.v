(* C134: a vector index holds each row once, in its partition, with the code of its vector. *)
From Coq Require Import List Arith NArith ZArith Bool Permutation Sorted.
From Verif Require Import Lib PageModel VecIdxModel VecIdxProofs VecIdxWhole VecIdxExamples.
Import ListNotations.
Local Open Scope nat_scope.

Theorem C134_build_exact : forall V (prep : V -> V) (nearest : V -> option nat) (resid : nat -> V -> V) (quant : V -> list nat) nparts pq m sort buffer_size lookup data,
  0 < m -> (forall v, length (quant v) = m) -> (forall l, Permutation (sort l) l) -> 0 < buffer_size -> 0 < nparts -> (forall v p, nearest v = Some p -> p < nparts) ->
  concat data <> [] -> nparts = 1 \/ hd [] data <> [] ->
  exists x, build prep nearest resid quant nparts pq m sort buffer_size lookup data = Some x /\
    (forall p, p < nparts -> Permutation (held pq m x p) (want prep nearest resid quant (concat data) p) /\ sound (load_partition x p)) /\
    Permutation (flat_map (fun p => map fst (held pq m x p)) (seq 0 nparts)) (map fst (concat data)).
Proof. exact @build_exact. Qed.
Print Assumptions C134_build_exact.

Theorem C134_optimize_plain_partial : forall V (nearest : V -> option nat) (quant : V -> list nat) nparts pq m sort buffer_size lookup vec dataset existing data,
  0 < m -> (forall v, length (quant v) = m) -> (forall l, Permutation (sort l) l) -> 0 < buffer_size -> 0 < nparts -> (forall v p, nearest v = Some p -> p < nparts) ->
  (forall p e i, p < nparts -> In e existing -> In i (map fst (held pq m e p)) -> lookup i = Some (vec i)) -> nparts = 1 \/ data = [] \/ hd [] data <> [] ->
  concat data <> [] \/ (exists p e, p < nparts /\ In e existing /\ held pq m e p <> []) ->
  exists x, optimize (fun v => v) nearest (fun _ v => v) quant nparts pq m sort buffer_size lookup dataset existing (Some data) = Some x /\
  forall p, p < nparts -> Permutation (held pq m x p) (map (fun i => (i, quant (vec i))) (flat_map (fun e => map fst (held pq m e p)) existing) ++ want (fun v => v) nearest (fun _ v => v) quant (concat data) p) /\ sound (load_partition x p).
Proof. exact @optimize_plain_partial. Qed.
Print Assumptions C134_optimize_plain_partial.

Theorem C134_remap_exact : forall nparts m mapping x, (forall p, p < nparts -> sound (load_partition x p)) -> x_extra x = false -> (exists p e, p < nparts /\ In e (held false m x p) /\ mapping (fst e) <> Some None) ->
  exists y, remap nparts mapping x = Some y /\ forall p, p < nparts -> held false m y p = flat_map (goes mapping) (held false m x p).
Proof. exact @remap_exact. Qed.
Print Assumptions C134_remap_exact.

Theorem C134_remap_pq_partial : forall nparts m mapping x, (forall p, p < nparts -> sound (load_partition x p)) -> x_extra x = false -> (exists p, p < nparts /\ held true m x p <> []) -> (forall p e, p < nparts -> In e (held true m x p) -> mapping (fst e) <> Some None) ->
  exists y, remap nparts mapping x = Some y /\ forall p, p < nparts -> held true m y p = flat_map (goes mapping) (held true m x p).
Proof. exact @remap_pq_partial. Qed.
Print Assumptions C134_remap_pq_partial.

Theorem C134_build_refuted : exists (data : list (list (@row nat))) nearest quant, (forall v p, nearest v = Some p -> p < 2) /\ (forall v, length (quant v) = 2) /\ concat data <> [] /\
  build (fun v => v) nearest (fun _ v => v) quant 2 true 2 (fun l => l) 2 (fun _ => None) data = None.
Proof. exact @build_refuted. Qed.
Print Assumptions C134_build_refuted.

Theorem C134_build_empty_refuted : forall V prep nearest resid quant nparts pq m sort buffer_size (lookup : nat -> option V), build prep nearest resid quant nparts pq m sort buffer_size lookup [] = None.
Proof. exact @build_empty_refuted. Qed.
Print Assumptions C134_build_empty_refuted.

Theorem C134_optimize_residual_refuted : exists (old new : list (list (@row nat))) nearest resid quant lookup x y, (forall v p, nearest v = Some p -> p < 2) /\ (forall v, length (quant v) = 2) /\
  (forall r, In r (concat (old ++ new)) -> lookup (fst r) = Some (snd r)) /\
  build (fun v => v) nearest resid quant 2 true 2 (fun l => l) 2 lookup old = Some x /\ right_index (fun v => v) nearest resid quant 2 true 2 x (concat old) /\
  optimize (fun v => v) nearest resid quant 2 true 2 (fun l => l) 2 lookup (old ++ new) [x] (Some new) = Some y /\ ~ right_index (fun v => v) nearest resid quant 2 true 2 y (concat (old ++ new)).
Proof. exact @optimize_residual_refuted. Qed.
Print Assumptions C134_optimize_residual_refuted.

Theorem C134_optimize_deleted_refuted : exists (old new : list (list (@row nat))) nearest quant lookup x, (forall v p, nearest v = Some p -> p < 2) /\ (forall v, length (quant v) = 2) /\
  build (fun v => v) nearest (fun _ v => v) quant 2 true 2 (fun l => l) 2 lookup old = Some x /\ (exists i, In i (map fst (concat old)) /\ lookup i = None) /\
  optimize (fun v => v) nearest (fun _ v => v) quant 2 true 2 (fun l => l) 2 lookup new [x] (Some new) = None.
Proof. exact @optimize_deleted_refuted. Qed.
Print Assumptions C134_optimize_deleted_refuted.

Theorem C134_optimize_nothing_new_refuted : exists (old : list (list (@row nat))) nearest quant lookup x y, (forall v p, nearest v = Some p -> p < 2) /\ (forall v, length (quant v) = 2) /\
  build (fun v => v) nearest (fun _ v => v) quant 2 true 2 (fun l => l) 2 lookup old = Some x /\ right_index (fun v => v) nearest (fun _ v => v) quant 2 true 2 x (concat old) /\
  optimize (fun v => v) nearest (fun _ v => v) quant 2 true 2 (fun l => l) 2 lookup old [x] None = Some y /\ held true 2 y 0 = [(10, [4; 104]); (10, [4; 104])].
Proof. exact @optimize_nothing_new_refuted. Qed.
Print Assumptions C134_optimize_nothing_new_refuted.

Theorem C134_remap_pq_refuted : exists x y mapping, (forall p, p < 2 -> sound (load_partition x p)) /\ x_extra x = false /\
  held true 2 x 0 = [(10, [4; 104]); (13, [0; 100]); (14, [8; 108])] /\ mapping 10 = Some None /\ (forall i, i <> 10 -> mapping i = None) /\
  remap 2 mapping x = Some y /\ ~ held true 2 y 0 = [(13, [0; 100]); (14, [8; 108])] /\ map fst (held true 2 y 0) = [13; 14].
Proof. exact @remap_pq_refuted. Qed.
Print Assumptions C134_remap_pq_refuted.

Theorem C134_remap_single_refuted : exists (data : list (list (@row nat))) x, concat data <> [] /\ build (fun v => v) (fun _ => Some 0) (fun _ v => v) ex_quant 1 false 2 (fun l => l) 2 (fun _ => None) data = Some x /\ forall mapping, remap 1 mapping x = None.
Proof. exact @remap_single_refuted. Qed.
Print Assumptions C134_remap_single_refuted.

Theorem C134_remap_gone_refuted : exists x mapping, (forall p, p < 2 -> sound (load_partition x p)) /\ x_extra x = false /\ map fst (held false 2 x 0 ++ held false 2 x 1) = [10; 11] /\ (forall i, mapping i = Some None) /\ remap 2 mapping x = None.
Proof. exact @remap_gone_refuted. Qed.
Print Assumptions C134_remap_gone_refuted.
