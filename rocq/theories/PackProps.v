(* C129: pages of packed structs in format 2.0. *)
From Coq Require Import List Arith NArith ZArith Bool Permutation Sorted.
From Verif Require Import Lib PageModel FlatModel FlatProofs FlatPage PackModel PackProofs.
Import ListNotations.
Local Open Scope nat_scope.

(* for fields without booleans, exactly the pages without any validity bitmap can be written *)
Theorem C129_writes : forall ts arrays, Forall t_ok ts -> Forall no_bool ts -> Forall (s_wf ts) arrays ->
  (write_packed ts arrays <> None <-> ts <> [] /\ 0 < struct_rows arrays /\ plain_pages ts arrays).
Proof. exact @packed_writes. Qed.
Print Assumptions C129_writes.

(* missing from C129: reads of some of the fields, nulls and booleans, for which it is false *)
Theorem C129_rows_partial : forall ts arrays rs skip n, ts <> [] -> Forall t_ok ts -> Forall (s_wf ts) arrays -> 0 < struct_rows arrays -> plain_pages ts arrays ->
  ranges_in (struct_rows arrays) rs -> skip + n <= rows_of rs ->
  read_packed ts (seq 0 (length ts)) arrays rs skip n = Some (firstn n (skipn skip (flat_map (fun r => slice (fst r) (snd r) (flat_map (s_rows ts (seq 0 (length ts))) arrays)) rs))).
Proof. exact @packed_exact. Qed.
Print Assumptions C129_rows_partial.

(* whatever is read back with all fields is what was written *)
Theorem C129_never_wrong : forall ts arrays rs skip n got, Forall t_ok ts -> Forall (s_wf ts) arrays -> ranges_in (struct_rows arrays) rs -> skip + n <= rows_of rs ->
  read_packed ts (seq 0 (length ts)) arrays rs skip n = Some got ->
  got = firstn n (skipn skip (flat_map (fun r => slice (fst r) (snd r) (flat_map (s_rows ts (seq 0 (length ts))) arrays)) rs)).
Proof. exact @packed_safe. Qed.
Print Assumptions C129_never_wrong.

Theorem C129_projection_refuted : exists ts arrays js got, Forall t_ok ts /\ Forall (s_wf ts) arrays /\ plain_pages ts arrays /\ Forall (fun k => k < length ts) js /\ NoDup js /\
  read_packed ts js arrays [(0, 2)] 0 2 = Some got /\
  got = [VList [VBytes [1; 3]%N]; VList [VBytes [4; 2]%N]] /\ flat_map (s_rows ts js) arrays = [VList [VBytes [3; 4]%N]; VList [VBytes [5; 6]%N]].
Proof. exact @packed_projection_refuted. Qed.
Print Assumptions C129_projection_refuted.

Theorem C129_validity_refuted : exists ts arrays, Forall t_ok ts /\ Forall no_bool ts /\ Forall (s_wf ts) arrays /\ 0 < struct_rows arrays /\
  flat_map (s_rows ts [0]) arrays = [VList [VBytes [1]%N]; VList [VBytes [2]%N]] /\ write_packed ts arrays = None.
Proof. exact @packed_validity_refuted. Qed.
Print Assumptions C129_validity_refuted.

Theorem C129_child_null_refuted : exists ts arrays, Forall t_ok ts /\ Forall no_bool ts /\ Forall (s_wf ts) arrays /\ 0 < struct_rows arrays /\ Forall (fun a => s_valid a = None) arrays /\
  flat_map (s_rows ts [0]) arrays = [VList [VBytes [1]%N]; VList [VNull]] /\ write_packed ts arrays = None.
Proof. exact @packed_child_null_refuted. Qed.
Print Assumptions C129_child_null_refuted.

Theorem C129_bool_refuted : exists ts arrays, Forall t_ok ts /\ Forall (s_wf ts) arrays /\ 0 < struct_rows arrays /\ Forall (fun a => s_valid a = None) arrays /\
  flat_map (s_rows ts [0]) arrays = [VList [VBool true]] /\ write_packed ts arrays = None.
Proof. exact @packed_bool_refuted. Qed.
Print Assumptions C129_bool_refuted.

Theorem C129_bool_lists_refuted : exists ts arrays p, Forall t_ok ts /\ Forall (s_wf ts) arrays /\ 0 < struct_rows arrays /\ write_packed ts arrays = Some p /\
  forall rs skip n, read_packed ts (seq 0 (length ts)) arrays rs skip n = None.
Proof. exact @packed_bool_lists_refuted. Qed.
Print Assumptions C129_bool_lists_refuted.
