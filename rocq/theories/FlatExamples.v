(* Cases that meet the hypotheses of FlatPage, and reads that give other rows. *)
From Coq Require Import List Arith NArith Bool Lia.
From Verif Require Import Lib PageModel FlatModel FlatProofs FlatPage.
Import ListNotations.
Local Open Scope nat_scope.

(* lists of two values of two bytes: a null list, a null item; a second array without validity *)
Definition ex_t := TFsl (TFixed 2) 2.
Definition ex_arrays :=
  [AFsl 3 (AFixed [[1;0];[2;0];[3;0];[4;0];[5;0];[6;0]]%N (Some [true;true;true;true;false;true])) (Some [true;false;true]);
   AFsl 2 (AFixed [[7;0];[8;0];[9;0];[10;0]]%N None) None].
Example ex_ok : t_ok ex_t /\ Forall (f_wf ex_t) ex_arrays /\ page_rows ex_t ex_arrays = 5 /\ ~ no_bits ex_t ex_arrays.
Proof.
  unfold ex_t, ex_arrays. split; [cbn; lia|]. split; [|split; [reflexivity|]].
  - repeat constructor.
  - intros [H _]. apply Forall_cons_iff in H as [H _]. discriminate.
Qed.
Example ex_rows : flat_map (logical ex_t) ex_arrays =
  [VList [VBytes [1;0]%N; VBytes [2;0]%N]; VNull; VList [VNull; VBytes [6;0]%N]; VList [VBytes [7;0]%N; VBytes [8;0]%N]; VList [VBytes [9;0]%N; VBytes [10;0]%N]].
Proof. reflexivity. Qed.
(* three buffers, described by the page *)
Example ex_page : write_page ex_t ex_arrays = Some ([[29]; [239;3]; [1;0;2;0;3;0;4;0;5;0;6;0;7;0;8;0;9;0;10;0]]%N, ESome (EFlat 1 0) (EFsl (ESome (EFlat 1 1) (EFlat 16 2)) 2)).
Proof. vm_compute. reflexivity. Qed.
Example ex_scan : read_batches ex_t ex_arrays [(1, 5)] 0 [3; 1] = Some (slice 1 5 (flat_map (logical ex_t) ex_arrays)).
Proof. vm_compute. reflexivity. Qed.
Example ex_take : read_batches ex_t ex_arrays (map (fun i => (i, S i)) [4; 0; 2]) 0 [2; 1] = Some (map (fun i => nth i (flat_map (logical ex_t) ex_arrays) VNull) [4; 0; 2]).
Proof. vm_compute. reflexivity. Qed.
Example ex_bytes : no_bits ex_t [AFsl 2 (AFixed [[7;0];[8;0];[9;0];[10;0]]%N None) None] /\ ~ aligned [(0, 2); (0, 2)] 1 2.
Proof. split; [repeat constructor|]. cbn. lia. Qed.

(* ---- a batch that starts inside a range and goes past its end: rows after the range are taken ---- *)
Definition bits12 : list bool := [true;true;true;true;false;false;false;false;true;true;true;true].
Theorem bool_batch_refuted : exists t arrays rs skip n got,
  t_ok t /\ Forall (f_wf t) arrays /\ 0 < page_rows t arrays /\ ranges_in (page_rows t arrays) rs /\ skip + n <= rows_of rs /\
  firstn n (skipn skip (flat_map (fun r => slice (fst r) (snd r) (flat_map (logical t) arrays)) rs)) = repeat (VBool true) 4 /\
  read_rows t arrays rs skip n = Some got /\ got = [VBool true; VBool true; VBool false; VBool false].
Proof.
  exists TBool, [ABool bits12 None], [(0, 4); (8, 12)], 2, 4, [VBool true; VBool true; VBool false; VBool false].
  split; [exact Logic.I|]. split; [repeat constructor|]. split; [cbn; lia|]. split; [repeat constructor; cbn; lia|]. split; [cbn; lia|].
  repeat split; vm_compute; reflexivity.
Qed.
(* values become null and nulls values *)
Theorem null_batch_refuted : exists t arrays rs skip n,
  t_ok t /\ Forall (f_wf t) arrays /\ 0 < page_rows t arrays /\ ranges_in (page_rows t arrays) rs /\ skip + n <= rows_of rs /\
  firstn n (skipn skip (flat_map (fun r => slice (fst r) (snd r) (flat_map (logical t) arrays)) rs)) = [VBytes [2]; VBytes [3]; VBytes [8]; VBytes [9]]%N /\
  read_rows t arrays rs skip n = Some [VBytes [2]; VBytes [3]; VNull; VNull]%N.
Proof.
  exists (TFixed 1), [AFixed (map (fun i => [i]) [0;1;2;3;4;5;6;7;8;9;10;11])%N (Some bits12)], [(0, 4); (8, 12)], 2, 4.
  split; [cbn; lia|]. split. { constructor; [|constructor]. cbn [f_wf]. split; [repeat constructor|reflexivity]. }
  split; [cbn; lia|]. split; [repeat constructor; cbn; lia|]. split; [cbn; lia|]. split; vm_compute; reflexivity.
Qed.
(* or the read is out of the bounds of the buffer that was fetched *)
Theorem bool_panic_refuted : exists t arrays rs skip n,
  t_ok t /\ Forall (f_wf t) arrays /\ 0 < page_rows t arrays /\ ranges_in (page_rows t arrays) rs /\ skip + n <= rows_of rs /\ read_rows t arrays rs skip n = None.
Proof.
  exists TBool, [ABool (repeat true 16) None], [(8, 16); (0, 8)], 4, 8.
  split; [exact Logic.I|]. split; [repeat constructor|]. split; [cbn; lia|]. split; [repeat constructor; cbn; lia|]. split; [cbn; lia|]. vm_compute. reflexivity.
Qed.
(* lists of no items are written and cannot be read *)
Theorem fsl_zero_refuted : exists t arrays p, Forall (f_wf t) arrays /\ 0 < page_rows t arrays /\ write_page t arrays = Some p /\ read_rows t arrays [(0, 1)] 0 1 = None.
Proof.
  exists (TFsl (TFixed 4) 0), [AFsl 2 (AFixed [] None) None]. eexists. split; [|split; [cbn; lia|split; vm_compute; reflexivity]].
  constructor; [|constructor]. cbn [f_wf]. repeat split. constructor.
Qed.
