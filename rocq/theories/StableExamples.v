(* Concrete cases and counterexamples for compaction with stable row ids (C121). *)
From Coq Require Import List Arith NArith Bool Lia ZifyBool ZifyN ZifyNat Permutation.
From Verif Require Import Lib RowIdsModel RowIdsSpec EncArrProofs BitmapProofs SegProofs SeqProofs RechunkProofs StableModel StableProofs StableGap.
Import ListNotations.
Local Open Scope nat_scope.

(* two fragments, the first rows of one and the last of the other deleted; the second
   sequence is loaded first; three new fragments *)
Definition f1 : ofrag nat := Build_ofrag 0 [Range 0 4] (Some [0; 1]) [100; 101; 102; 103].
Definition f2 : ofrag nat := Build_ofrag 1 [Range 4 8] (Some [3]) [104; 105; 106; 107].
Lemma sincn_dec : forall l, (fix s (l : list nat) := match l with [] => true | x :: t => forallb (fun y => x <? y) t && s t end) l = true -> sincn l.
Proof.
  induction l as [|x t IH]; intros H; [exact Logic.I|]. apply andb_prop in H. destruct H as [H1 H2]. cbn [sincn]. split; auto.
  intros y Hy. rewrite forallb_forall in H1. specialize (H1 y Hy). lia.
Qed.
Lemma ex_ok1 : frag_ok f1.
Proof.
  unfold frag_ok. split; [repeat constructor; cbn; lia|]. split; [reflexivity|]. split; [now apply sincn_dec|]. intros p Hp. cbn in *. intuition lia.
Qed.
Lemma ex_ok2 : frag_ok f2.
Proof.
  unfold frag_ok. split; [repeat constructor; cbn; lia|]. split; [reflexivity|]. split; [now apply sincn_dec|]. intros p Hp. cbn in *. intuition lia.
Qed.
Lemma ex_plain1 : masks_plain f1.
Proof.
  unfold masks_plain. cbn [o_del f1 o_seq]. apply (contiguous_plain (Range 0 4) [0; 1] 2 4); try (vm_compute; reflexivity); try exact Logic.I; [cbn; unfold two64; lia|now apply sincn_dec|intros p Hp; cbn [seg_iter]; rewrite range_len; cbn [In] in Hp; lia].
Qed.
Lemma ex_plain2 : masks_plain f2.
Proof.
  unfold masks_plain. cbn [o_del f2 o_seq]. apply (contiguous_plain (Range 4 8) [3] 4 7); try (vm_compute; reflexivity); try exact Logic.I; [cbn; unfold two64; lia|now apply sincn_dec|intros p Hp; cbn [seg_iter]; rewrite range_len; cbn [In] in Hp; lia].
Qed.
Example ex_compaction : Permutation [(1, [Range 4 8]); (0, [Range 0 4])]%N (loaded_pairs [f1; f2]) /\ Forall frag_ok [f1; f2] /\ Forall masks_plain [f1; f2] /\
  rechunk_stable [(1, [Range 4 8]); (0, [Range 0 4])]%N [f1; f2] [1; 3; 1] = Some (RcOk [[Range 2 3]; [Range 3 6]; [Range 6 7]]) /\
  concat (map live_rows [f1; f2]) = [(2%N, 102); (3%N, 103); (4%N, 104); (5%N, 105); (6%N, 106)].
Proof.
  split; [apply perm_swap|]. split; [exact (Forall_cons _ ex_ok1 (Forall_cons _ ex_ok2 (Forall_nil _)))|]. split; [exact (Forall_cons _ ex_plain1 (Forall_cons _ ex_plain2 (Forall_nil _)))|].
  split; vm_compute; reflexivity.
Qed.
(* a fragment of twelve rows, the sixth deleted, compacted into one fragment: the last id
   is lost (the slice of a bitmap counts slots) *)
Definition f3 : ofrag nat := Build_ofrag 0 [Range 0 12] (Some [5]) (seq 100 12).
Lemma ex_ok3 : frag_ok f3.
Proof.
  unfold frag_ok. split; [repeat constructor; cbn; lia|]. split; [reflexivity|]. split; [now apply sincn_dec|]. intros p Hp. cbn in *. intuition lia.
Qed.
Theorem compaction_refuted :
  ~ (forall V (frags : list (ofrag V)) loaded chunks seqs,
      NoDup (map (fun f => id32 (o_id f)) frags) -> Permutation loaded (loaded_pairs frags) -> Forall frag_ok frags ->
      concat chunks = concat (map (fun f => live (deleted f) (o_rows f)) frags) ->
      rechunk_stable loaded frags (map (@length V) chunks) = Some (RcOk seqs) ->
      concat (map (fun p => combine (seq_iter (fst p)) (snd p)) (combine seqs chunks)) = concat (map live_rows frags)).
Proof.
  intros H. specialize (H nat [f3] (loaded_pairs [f3]) [live [5] (seq 100 12)]).
  assert (R : exists seqs, rechunk_stable (loaded_pairs [f3]) [f3] [11] = Some (RcOk seqs) /\ concat (map seq_iter seqs) = [0; 1; 2; 3; 4; 6; 7; 8; 9; 10]%N).
  { eexists. split; vm_compute; reflexivity. }
  destruct R as (seqs & R1 & R2). specialize (H seqs).
  assert (X : concat (map (fun p => combine (seq_iter (fst p)) (snd p)) (combine seqs [live [5] (seq 100 12)])) = concat (map live_rows [f3])).
  { apply H; auto; [cbn; repeat constructor; auto|constructor; [apply ex_ok3|constructor]]. }
  vm_compute in R1. injection R1 as <-. vm_compute in X. discriminate X.
Qed.
Example ex_gap_hyps : let l := map fst (live_rows f3) in In 0%N l /\ In 11%N l /\ (forall v, In v l -> 0 <= v <= 11)%N /\
  length l < N.to_nat (11 - 0 + 1) /\ 2 * (N.to_nat (11 - 0 + 1) - length l) <= length l /\ exists seqs, rechunk_stable (loaded_pairs [f3]) [f3] [4; 7] = Some (RcOk seqs).
Proof.
  cbv zeta. split; [vm_compute; auto|]. split; [vm_compute; tauto|]. split; [intros v H; vm_compute in H; intuition lia|].
  split; [vm_compute; lia|]. split; [vm_compute; lia|]. eexists. vm_compute. reflexivity.
Qed.
(* ids that were moved by updates are stored as an array: any deletions leave an array *)
Example ex_array : exists q, seq_mask [Arr (EU16 3 [4; 0; 9; 1]%N)] [1; 2] = Some q /\ seq_iter q = [7; 4]%N.
Proof. eexists. split; vm_compute; reflexivity. Qed.
