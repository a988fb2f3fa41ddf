(* Variable length encoding of format 1: cases, and what is false (C139). *)
From Coq Require Import List Arith NArith Bool Lia Sorted.
From Verif Require Import VarBinModel VarBinProofs VarBinTake.
Import ListNotations.
Local Open Scope nat_scope.

(* a slice of an array, and another one *)
Definition ex_a1 : barray nat := {| b_offsets := [2; 4; 4; 7]; b_data := [1; 2; 3; 4; 5; 6; 7; 8] |}.
Definition ex_a2 : barray nat := {| b_offsets := [0; 1; 3]; b_data := [10; 11; 12] |}.
Lemma ex_ok : Forall barray_ok [ex_a1; ex_a2].
Proof. repeat constructor; try discriminate; cbn; lia. Qed.
Example ex_rows : all_rows [ex_a1; ex_a2] = [[3; 4]; []; [5; 6; 7]; [10]; [11; 12]] /\ encode_var 3 [ex_a1; ex_a2] = ([3; 4; 5; 6; 7; 10; 11; 12], [3; 5; 5; 8; 9; 11]).
Proof. split; reflexivity. Qed.
Example ex_get : get_var true ([0; 0; 0] ++ [3; 4; 5; 6; 7; 10; 11; 12] ++ [9]) [3; 5; 5; 8; 9; 11] 5 1 4 = Some [None; Some [5; 6; 7]; Some [10]].
Proof. reflexivity. Qed.
Example ex_take : take_var 1 false ([0; 0; 0] ++ [3; 4; 5; 6; 7; 10; 11; 12] ++ [9]) [3; 5; 5; 8; 9; 11] 5 [0; 1; 3; 4] = Some [Some [3; 4]; Some []; Some [10]; Some [11; 12]] /\
  plan [3; 5; 5; 8; 9; 11] 1 0 0 0 0 true [] [0; 1; 3; 4] = [([0; 1], true); ([3; 4], true)] /\
  plan [3; 5; 5; 8; 9; 11] 9 0 0 0 0 true [] [0; 1; 3; 4] = [([0; 1; 3; 4], false)] /\ StronglySorted lt [0; 1; 3; 4].
Proof. repeat split. repeat constructor. Qed.

(* false: a value is read back. An empty one of a nullable column is read as null, by range and by index *)
Theorem empty_refuted : exists arrs bs ps, Forall (@barray_ok nat) arrs /\ encode_var 0 arrs = (bs, ps) /\ all_rows arrs = [[1]; []] /\
  get_var true bs ps 2 0 2 = Some [Some [1]; None] /\ take_var 0 true bs ps 2 [1] = Some [None].
Proof. exists [{| b_offsets := [0; 1; 1]; b_data := [1] |}], [1], [0; 1; 1]. split; [repeat constructor; try discriminate; cbn; lia|]. repeat split. Qed.
(* false: indices may repeat. If the first one does, the chunk is taken for contiguous and its bytes are copied once *)
Theorem repeat_refuted : exists arrs bs ps, Forall (@barray_ok nat) arrs /\ encode_var 0 arrs = (bs, ps) /\ all_rows arrs = [[1; 2]; [3]] /\
  forall min_io nullable, take_var min_io nullable bs ps 2 [0; 0] = None /\ take_var min_io nullable bs ps 2 [1; 1] = None.
Proof. exists [{| b_offsets := [0; 2; 3]; b_data := [1; 2; 3] |}], [1; 2; 3], [0; 2; 3]. split; [repeat constructor; try discriminate; cbn; lia|]. split; [reflexivity|]. split; [reflexivity|]. intros m b. split; reflexivity. Qed.
(* false: take returns the rows asked for or fails. An index is compared with the position of the first index of its chunk; with the block
   size of the code, and five rows of which the second is larger than a block, the last index returns bytes of another row *)
Definition big : nat := N.to_nat 65537.
Definition ex_big : list (barray nat) := [{| b_offsets := [0; 0; big]; b_data := repeat 7 big |}; {| b_offsets := [0; 1; 3; 4]; b_data := [1; 2; 3; 4] |}].
Theorem take_wrong_refuted : exists arrs bs ps indices v, Forall (@barray_ok nat) arrs /\ encode_var 0 arrs = (bs, ps) /\ StronglySorted le indices /\ Forall (fun i => i < length (all_rows arrs)) indices /\
  take_var (N.to_nat 65536) false bs ps (length (all_rows arrs)) indices = Some v /\
  nth_error indices 5 = Some 4 /\ nth_error (all_rows arrs) 4 = Some [4] /\ nth_error v 5 = Some (Some [2]).
Proof.
  exists ex_big, (fst (encode_var 0 ex_big)), (snd (encode_var 0 ex_big)), [0; 0; 0; 0; 2; 4], [Some []; Some []; Some []; Some []; Some [1]; Some [2]].
  split.
  { constructor; [|constructor; [|constructor]].
    - split; [discriminate|]. cbn [b_offsets b_data]. rewrite repeat_length. generalize big as k. intros k. split; repeat constructor; lia.
    - split; [discriminate|]. cbn [b_offsets b_data]. split; repeat constructor. }
  split; [apply surjective_pairing|]. split; [repeat constructor|]. split; [change (length (all_rows ex_big)) with 5; repeat constructor|].
  split; [vm_compute; reflexivity|]. split; [reflexivity|]. split; [vm_compute; reflexivity|reflexivity].
Qed.
