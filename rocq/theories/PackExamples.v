(* Concrete arrays that meet the hypotheses of the theorems about PackModel. *)
From Coq Require Import List Arith NArith Bool Lia.
From Verif Require Import Lib PageModel FlatModel FlatProofs FlatPage PackModel PackProofs.
Import ListNotations.

(* struct<a: u16, b: fixed_size_list<u8, 2>, c: u8>, three rows in two arrays *)
Definition pk_ts : list fty := [TFixed 2; TFsl (TFixed 1) 2; TFixed 1].
Definition pk_arrays : list sarr :=
  [ {| s_len := 2; s_children := [AFixed [[1; 2]; [3; 4]]%N None; AFsl 2 (AFixed [[5]; [6]; [7]; [8]]%N None) None; AFixed [[9]; [10]]%N None]; s_valid := None |};
    {| s_len := 1; s_children := [AFixed [[11; 12]]%N None; AFsl 1 (AFixed [[13]; [14]]%N None) None; AFixed [[15]]%N None]; s_valid := None |} ].
Lemma pk_ok : pk_ts <> [] /\ Forall t_ok pk_ts /\ Forall no_bool pk_ts /\ Forall (s_wf pk_ts) pk_arrays /\ 0 < struct_rows pk_arrays /\ plain_pages pk_ts pk_arrays.
Proof.
  split; [discriminate|]. split; [repeat constructor|]. split; [repeat constructor|]. split.
  - apply Forall_cons; [|apply Forall_cons; [|apply Forall_nil]]; (split; [reflexivity|split; [|exact Logic.I]]; intros k Hk; destruct k as [|[|[|k]]]; [| | |cbn in Hk; lia]; cbn; repeat split; repeat constructor).
  - split; [cbn; lia|]. split; [repeat constructor|]. intros k Hk. destruct k as [|[|[|k]]]; [| | |cbn in Hk; lia]; cbn; repeat split; repeat constructor.
Qed.
Example pk_page : exists es, write_packed pk_ts pk_arrays = Some ([1; 2; 5; 6; 9; 3; 4; 7; 8; 10; 11; 12; 13; 14; 15]%N, es).
Proof. eexists. vm_compute. reflexivity. Qed.
(* the last two rows of the selection 1, 0, 2 *)
Example pk_read : ranges_in (struct_rows pk_arrays) [(1, 2); (0, 1); (2, 3)] /\ 1 + 2 <= rows_of [(1, 2); (0, 1); (2, 3)] /\
  read_packed pk_ts [0; 1; 2] pk_arrays [(1, 2); (0, 1); (2, 3)] 1 2 =
  Some [VList [VBytes [1; 2]%N; VList [VBytes [5]%N; VBytes [6]%N]; VBytes [9]%N]; VList [VBytes [11; 12]%N; VList [VBytes [13]%N; VBytes [14]%N]; VBytes [15]%N]].
Proof. split; [repeat constructor|]. split; [cbn; lia|]. vm_compute. reflexivity. Qed.
