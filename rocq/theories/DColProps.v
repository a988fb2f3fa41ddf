(* C126: dictionary columns in format 2.0. *)
From Coq Require Import List Arith NArith ZArith Bool Permutation Sorted.
From Verif Require Import Lib PageModel ListEncModel ListEncProofs SerdeModel FlatModel FlatProofs FlatPage DColModel DColProofs DColPage DColExamples.
Import ListNotations.
Local Open Scope nat_scope.

(* missing from C126: arrays whose indices are widened, a null index that does not fit and strings with 64-bit offsets, for all of which it is false *)
Theorem C126_rows_partial : forall cat k vt arrays a rs skip n, cat_ok cat -> k_ok k -> (match vt with VTFlat t => t_ok t | _ => True end) -> vt <> VTStr true ->
  Forall (da_ok k vt) arrays -> 0 < sumn (map da_len arrays) ->
  cat k arrays = Some a -> (da_extract arrays (sumn (map da_len arrays)) <> NNone -> (N.of_nat (null_index (da_vals a)) <= k_max k)%N) ->
  ranges_in (sumn (map da_len arrays)) rs -> skip + n <= rows_of rs ->
  read_dict cat k vt arrays rs skip n = Some (firstn n (skipn skip (flat_map (fun r => slice (fst r) (snd r) (flat_map (da_rows vt) arrays)) rs))).
Proof. exact @dict_exact. Qed.
Print Assumptions C126_rows_partial.

(* what is assumed of arrow's concat holds of appending the dictionaries *)
Theorem C126_concat_contract : cat_ok plain_cat.
Proof. exact @plain_cat_ok. Qed.
Print Assumptions C126_concat_contract.

(* putting arrays together keeps their rows, also when the keys are widened *)
Theorem C126_concat_rows : forall cat k vt arrays k1 a, cat_ok cat -> Forall (da_ok k vt) arrays -> Forall (fun x => (N.of_nat (dv_len (da_vals x)) <= k_max u32)%N) arrays ->
  concat_dict cat k arrays = Some (k1, a) -> da_ok k1 vt a /\ da_rows vt a = flat_map (da_rows vt) arrays /\ (k1 = k \/ k1 = u32).
Proof. exact @concat_rows. Qed.
Print Assumptions C126_concat_rows.

Theorem C126_null_widened_refuted : exists k vt arrays, k_ok k /\ vt = VTFlat (TFixed 1) /\ Forall (da_ok k vt) arrays /\ 0 < sumn (map da_len arrays) /\
  flat_map (da_rows vt) arrays = [VBytes [5]%N; VBytes [6]%N; VNull] /\ forall cat, (forall a, cat k [a] = Some a) ->
  read_dict cat k vt arrays [(0, 3)] 0 3 = Some [VBytes [5]%N; VBytes [0]%N; VBytes [0]%N].
Proof. exact @null_widened_refuted. Qed.
Print Assumptions C126_null_widened_refuted.

Theorem C126_concat_widened_refuted : exists k vt arrays, k_ok k /\ Forall (da_ok k vt) arrays /\ 0 < sumn (map da_len arrays) /\
  flat_map (da_rows vt) arrays = [VBytes [5]%N; VBytes [6]%N; VBytes [7]%N] /\
  exists cat, cat_ok cat /\ read_dict cat k vt arrays [(0, 3)] 0 3 = Some [VBytes [5]%N; VBytes [0]%N; VBytes [0]%N].
Proof. exact @concat_widened_refuted. Qed.
Print Assumptions C126_concat_widened_refuted.

Theorem C126_null_index_refuted : exists k vt arrays, k_ok k /\ Forall (da_ok k vt) arrays /\ 0 < sumn (map da_len arrays) /\
  flat_map (da_rows vt) arrays = [VBytes [5]%N; VNull] /\ forall cat, (forall a, cat k [a] = Some a) ->
  read_dict cat k vt arrays [(0, 2)] 0 2 = Some [VBytes [5]%N; VBytes [0]%N].
Proof. exact @null_index_refuted. Qed.
Print Assumptions C126_null_index_refuted.

Theorem C126_large_strings_refuted : exists k arrays, k_ok k /\ Forall (da_ok k (VTStr true)) arrays /\ 0 < sumn (map da_len arrays) /\ forall cat, (forall a, cat k [a] = Some a) ->
  (exists b p, dict_from_arrays cat k (VTStr true) arrays = Some b /\ dict_encode (VTStr true) b = Some p) /\ read_dict cat k (VTStr true) arrays [(0, 1)] 0 1 = None.
Proof. exact @large_strings_refuted. Qed.
Print Assumptions C126_large_strings_refuted.
