(* C131: the check of non-null fields when a batch is written. *)
From Coq Require Import List Arith NArith ZArith Bool Permutation Sorted.
From Verif Require Import Lib PageModel NotNullModel NotNullProofs.
Import ListNotations.
Local Open Scope nat_scope.

(* missing from C131: batches with their columns in another order, nulls of the null type and inside dictionaries, for which it is false *)
Theorem C131_sound_partial : forall schema b n stored, NoDup (map nf_name schema) -> aligned schema b -> each_column (fun f a => typed f a /\ open_nulls a) schema b ->
  write_batch schema b n = Some stored -> n <> 0 -> fitting schema b /\ Forall2 (fun f a => Forall (fits f) (rows a)) schema stored.
Proof. exact @batch_sound. Qed.
Print Assumptions C131_sound_partial.

(* missing from C131: nulls below null structs and outside of sliced lists, for which it is false *)
Theorem C131_complete_partial : forall schema b n, NoDup (map nf_name schema) -> aligned schema b -> each_column (fun f a => typed f a /\ shown (fun _ => True) a) schema b ->
  fitting schema b -> (N.of_nat n < 4294967296)%N -> exists stored, write_batch schema b n = Some stored.
Proof. exact @batch_complete. Qed.
Print Assumptions C131_complete_partial.

Theorem C131_field_sound_partial : forall f a, typed f a -> open_nulls a -> verify f a = true -> Forall (fits f) (rows a).
Proof. exact @verify_sound. Qed.
Print Assumptions C131_field_sound_partial.

Theorem C131_field_complete_partial : forall f a, typed f a -> shown (fun _ => True) a -> Forall (fits f) (rows a) -> verify f a = true.
Proof. exact @verify_complete. Qed.
Print Assumptions C131_field_complete_partial.

Theorem C131_order_accepts_refuted : exists schema b stored, NoDup (map nf_name schema) /\ each_column typed schema b /\ each_column (fun _ a => open_nulls a) schema b /\ write_batch schema b 1 = Some stored /\ exists f a, In (f, a) (combine schema stored) /\ nf_nullable f = false /\ In VNull (rows a).
Proof. exact @order_accepts_refuted. Qed.
Print Assumptions C131_order_accepts_refuted.

Theorem C131_order_refuses_refuted : exists schema b, NoDup (map nf_name schema) /\ each_column (fun f a => typed f a /\ shown (fun _ => True) a) schema b /\ fitting schema b /\ write_batch schema b 1 = None.
Proof. exact @order_refuses_refuted. Qed.
Print Assumptions C131_order_refuses_refuted.

Theorem C131_hidden_nulls_refuted : exists f1 a1 f2 a2, (typed f1 a1 /\ nf_nullable f1 = false /\ verify f1 a1 = true /\ rows a1 = [VNull]) /\ (typed f2 a2 /\ nf_nullable f2 = false /\ verify f2 a2 = true /\ rows a2 = [VItem; VNull]).
Proof. exact @hidden_nulls_refuted. Qed.
Print Assumptions C131_hidden_nulls_refuted.

Theorem C131_parent_null_refuted : exists f a, typed f a /\ Forall (fits f) (rows a) /\ verify f a = false.
Proof. exact @parent_null_refuted. Qed.
Print Assumptions C131_parent_null_refuted.

Theorem C131_sliced_list_refuted : exists f a, typed f a /\ anulls a = None /\ Forall (fits f) (rows a) /\ verify f a = false.
Proof. exact @sliced_list_refuted. Qed.
Print Assumptions C131_sliced_list_refuted.
