(* Cases that meet the hypotheses of DColPage, and dictionary columns that read back as other rows. *)
From Coq Require Import List Arith NArith Bool Lia.
From Verif Require Import Lib PageModel ListEncModel ListEncProofs SerdeModel FlatModel FlatProofs FlatPage DColModel DColProofs DColPage.
From Verif Require BinEncModel BinEncProofs.
Import ListNotations.
Local Open Scope nat_scope.

Definition i8 : kty := {| k_bytes := 1; k_signed := true |}.
(* two arrays of strings with different dictionaries, a null key and a null value *)
Definition exd : list darr :=
  [{| da_keys := [1; 0; 1]%N; da_kvalid := Some [true; false; true]; da_vals := DStr [{| la_offsets := [0; 1; 3]; la_valid := None; la_values := [97; 98; 99] |}] |};
   {| da_keys := [0; 1]%N; da_kvalid := None; da_vals := DStr [{| la_offsets := [0; 2; 2]; la_valid := Some [true; false]; la_values := [100; 101] |}] |}].
Example exd_ok : Forall (da_ok i8 (VTStr false)) exd /\ sumn (map da_len exd) = 5 /\
  exists a, plain_cat i8 exd = Some a /\ da_extract exd 5 <> NNone /\ null_index (da_vals a) = 3 /\ (N.of_nat (null_index (da_vals a)) <= k_max i8)%N.
Proof.
  split; [|split; [reflexivity|]].
  - repeat constructor; cbn; try lia; discriminate.
  - eexists. split; [reflexivity|]. split; [discriminate|]. split; [reflexivity|]. cbn. lia.
Qed.
Example exd_rows : flat_map (da_rows (VTStr false)) exd = [VBytes [98; 99]%N; VNull; VBytes [98; 99]%N; VBytes [100; 101]%N; VNull].
Proof. reflexivity. Qed.
Example exd_read : read_dict plain_cat i8 (VTStr false) exd [(0, 2); (2, 5)] 1 4 = Some [VNull; VBytes [98; 99]%N; VBytes [100; 101]%N; VNull].
Proof. vm_compute. reflexivity. Qed.

Definition bytes_dict (n : nat) (valid : option (list bool)) : dvals := DFlat [AFixed (map (fun i => [N.of_nat i]) (seq 0 n)) valid].
Definition dict1 (keys : list N) (kv : option (list bool)) (v : dvals) : darr := {| da_keys := keys; da_kvalid := kv; da_vals := v |}.
Lemma bytes_wf : forall n v, match v with Some b => length b = n | None => True end -> vals_ok (VTFlat (TFixed 1)) (bytes_dict n v).
Proof.
  intros n v H. split; [cbn; lia|]. constructor; [|constructor]. split.
  - apply Forall_forall. intros x X. apply in_map_iff in X as [i [<- _]]. reflexivity.
  - destruct v; [|exact Logic.I]. now rewrite map_length, seq_length.
Qed.

(* 128 values and a null: the index of the null does not fit eight bits, all indices are written with 32 bits and
   read with eight *)
Theorem null_widened_refuted : exists k vt arrays, k_ok k /\ vt = VTFlat (TFixed 1) /\ Forall (da_ok k vt) arrays /\ 0 < sumn (map da_len arrays) /\
  flat_map (da_rows vt) arrays = [VBytes [5]%N; VBytes [6]%N; VNull] /\ forall cat, (forall a, cat k [a] = Some a) ->
  read_dict cat k vt arrays [(0, 3)] 0 3 = Some [VBytes [5]%N; VBytes [0]%N; VBytes [0]%N].
Proof.
  exists i8, (VTFlat (TFixed 1)), [dict1 [5; 6; 0]%N (Some [true; true; false]) (bytes_dict 128 None)].
  split; [unfold k_ok; cbn; lia|]. split; [reflexivity|]. split.
  { constructor; [|constructor]. split; [now apply bytes_wf|]. split; [reflexivity|]. repeat constructor; cbn; try lia; discriminate. }
  split; [cbn; lia|]. split; [vm_compute; reflexivity|]. intros cat H. unfold read_dict, dict_from_arrays, dict_block, concat_dict. rewrite H. vm_compute. reflexivity.
Qed.
(* two batches of 100 values: arrow cannot concatenate them, the indices become 32 bits wide and are read with eight *)
Theorem concat_widened_refuted : exists k vt arrays, k_ok k /\ Forall (da_ok k vt) arrays /\ 0 < sumn (map da_len arrays) /\
  flat_map (da_rows vt) arrays = [VBytes [5]%N; VBytes [6]%N; VBytes [7]%N] /\
  exists cat, cat_ok cat /\ read_dict cat k vt arrays [(0, 3)] 0 3 = Some [VBytes [5]%N; VBytes [0]%N; VBytes [0]%N].
Proof.
  exists i8, (VTFlat (TFixed 1)), [dict1 [5; 6]%N None (bytes_dict 100 None); dict1 [7]%N None (bytes_dict 100 None)].
  split; [unfold k_ok; cbn; lia|]. split.
  { constructor; [|constructor; [|constructor]]; (split; [now apply bytes_wf|]); (split; [exact Logic.I|]); repeat constructor; cbn; try lia; discriminate. }
  split; [cbn; lia|]. split; [vm_compute; reflexivity|]. exists plain_cat. split; [exact plain_cat_ok|]. vm_compute. reflexivity.
Qed.
(* a dictionary with a null value whose index does not fit the key type: null rows get the index 0 *)
Theorem null_index_refuted : exists k vt arrays, k_ok k /\ Forall (da_ok k vt) arrays /\ 0 < sumn (map da_len arrays) /\
  flat_map (da_rows vt) arrays = [VBytes [5]%N; VNull] /\ forall cat, (forall a, cat k [a] = Some a) ->
  read_dict cat k vt arrays [(0, 2)] 0 2 = Some [VBytes [5]%N; VBytes [0]%N].
Proof.
  exists i8, (VTFlat (TFixed 1)), [dict1 [5; 0]%N (Some [true; false]) (bytes_dict 201 (Some (repeat true 200 ++ [false])))].
  split; [unfold k_ok; cbn; lia|]. split.
  { constructor; [|constructor]. split; [apply bytes_wf; reflexivity|]. split; [reflexivity|]. repeat constructor; cbn; try lia; discriminate. }
  split; [cbn; lia|]. split; [vm_compute; reflexivity|]. intros cat H. unfold read_dict, dict_from_arrays, dict_block, concat_dict. rewrite H. vm_compute. reflexivity.
Qed.
(* strings with 64-bit offsets are written and cannot be read *)
Theorem large_strings_refuted : exists k arrays, k_ok k /\ Forall (da_ok k (VTStr true)) arrays /\ 0 < sumn (map da_len arrays) /\ forall cat, (forall a, cat k [a] = Some a) ->
  (exists b p, dict_from_arrays cat k (VTStr true) arrays = Some b /\ dict_encode (VTStr true) b = Some p) /\ read_dict cat k (VTStr true) arrays [(0, 1)] 0 1 = None.
Proof.
  exists i8, [dict1 [0]%N None (DStr [{| la_offsets := [0; 1]; la_valid := None; la_values := [97] |}])].
  split; [unfold k_ok; cbn; lia|]. split. { constructor; [|constructor]. split; [repeat constructor|]. split; [exact Logic.I|]. repeat constructor; cbn; try lia; discriminate. }
  split; [cbn; lia|]. intros cat H. split.
  - eexists. eexists. split; [unfold dict_from_arrays, dict_block, concat_dict; rewrite H; vm_compute; reflexivity|vm_compute; reflexivity].
  - unfold read_dict, dict_from_arrays, dict_block, concat_dict. rewrite H. vm_compute. reflexivity.
Qed.
