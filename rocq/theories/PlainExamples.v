(* Plain encoding of format 1: cases, and what is false (C138). *)
From Coq Require Import List Arith Bool Lia Sorted.
From Verif Require Import PlainModel PlainProofs PlainTake.
Import ListNotations.
Local Open Scope nat_scope.

Definition ex_byte (k : nat) : byte := map (fun i => Nat.testbit k i) (seq 0 8).
(* two arrays of booleans in a file that has other things before and after them *)
Definition ex_bits (n : nat) : list val := map (fun k => VBit (k mod 3 =? 0)) (seq 0 n).
Definition ex_arrays : list (list val) := [ex_bits 11; ex_bits 70].
Definition ex_pre : list byte := map ex_byte [7; 8; 9].
Definition ex_post : list byte := map ex_byte [1; 2].
Example ex_bool : length (encode TBool ex_arrays) = 11 /\
  get (ex_pre ++ write TBool ex_arrays ++ ex_post) TBool 3 81 9 15 = Some [VBit true; VBit false; VBit true; VBit false; VBit false; VBit true] /\
  take 1 (ex_pre ++ encode TBool ex_arrays ++ ex_post) TBool 3 81 [0; 3; 3; 14; 80] = Some [VBit true; VBit true; VBit true; VBit true; VBit true] /\
  chunks (brk_bool 1) [0; 3; 3; 14; 80] = [[0; 3; 3]; [14]; [80]].
Proof. vm_compute. auto. Qed.
Example ex_bool_meets : sized TBool /\ flat_bool TBool /\ Forall (has TBool) (concat ex_arrays) /\ StronglySorted le [0; 3; 3; 14; 80] /\ Forall (fun i => i < length (concat ex_arrays)) [0; 3; 3; 14; 80].
Proof. split; [constructor|]. split; [constructor|]. split; [cbn; repeat constructor|]. split; repeat (constructor; try (cbn; lia)). Qed.
(* lists of three fixed size binaries of two bytes *)
Definition ex_fsb (k : nat) : val := VBytes [ex_byte k; ex_byte (k + 1)].
Definition ex_fsl (k : nat) : val := VList [ex_fsb k; ex_fsb (k + 20); ex_fsb (k + 40)].
Definition ex_ty : ty := TFsl (TFsb 2) 3.
Definition ex_lists : list (list val) := [map ex_fsl (seq 0 4); map ex_fsl (seq 50 9)].
Example ex_list : get (ex_pre ++ write ex_ty ex_lists ++ ex_post) ex_ty 3 13 3 6 = Some [ex_fsl 3; ex_fsl 50; ex_fsl 51] /\
  take 12 (ex_pre ++ encode ex_ty ex_lists ++ ex_post) ex_ty 3 13 [0; 1; 2; 3; 4; 7; 12] = Some [ex_fsl 0; ex_fsl 1; ex_fsl 2; ex_fsl 3; ex_fsl 50; ex_fsl 53; ex_fsl 58] /\
  chunks (brk_bytes 6 12) [0; 1; 2; 3; 4; 7; 12] = [[0; 1; 2; 3; 4]; [7]; [12]].
Proof. vm_compute. auto. Qed.
Example ex_list_meets : sized ex_ty /\ flat_bool ex_ty /\ Forall (has ex_ty) (concat ex_lists).
Proof. split; [repeat constructor|]. split; [repeat constructor|]. cbn. repeat (constructor; [constructor; [reflexivity|repeat constructor]|]). constructor. Qed.

(* false: rows that can be read by range can be taken by index. The width of a list of booleans is not known, and take panics *)
Theorem take_list_bool_refuted : (forall block file n pos len i is, take block file (TFsl TBool n) pos len (i :: is) = None) /\
  exists file, get file (TFsl TBool 2) 0 2 0 2 = Some [VList [VBit true; VBit false]; VList [VBit true; VBit true]] /\ file = write (TFsl TBool 2) [[VList [VBit true; VBit false]; VList [VBit true; VBit true]]].
Proof. split; [reflexivity|]. eexists. split; [|reflexivity]. vm_compute. reflexivity. Qed.
(* false: indices may come in any order. An index below the first of its chunk, or above the last, is an error *)
Theorem take_order_refuted : exists block file t len, file = encode t [ex_bits 81] /\ t = TBool /\ len = 81 /\
  take block file t 0 len [3; 1] = None /\ take block file t 0 len [1; 3; 2] = None /\ take block file t 0 len [1; 2; 3] <> None.
Proof. exists 4, (encode TBool [ex_bits 81]), TBool, 81. repeat split; vm_compute; try reflexivity. discriminate. Qed.
(* false: as many rows are read as were written. Lists of size zero are lost *)
Theorem get_zero_refuted : forall file t pos len s e, s < e -> get file (TFsl t 0) pos len s e = Some [].
Proof. intros file t pos len s e H. cbn [get]. destruct (Nat.leb_spec e s); [lia|]. rewrite !Nat.mul_0_r. destruct t; reflexivity. Qed.
