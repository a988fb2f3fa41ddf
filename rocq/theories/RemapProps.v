(* The address map of a compaction (C50): the claims. *)
From Coq Require Import List Arith NArith ZArith Bool Permutation Sorted.
From Verif Require Import Lib AMap SerdeModel CompactModel RemapProofs.
Import ListNotations.
Local Open Scope N_scope.

(* The gap detection yields exactly the addresses that are not live, for fragments in any order. *)
Theorem C50_missing : forall keep fuel frags rows, frags <> [] -> sizes_ok frags -> rows = filter keep (addresses frags) -> (length (addresses frags) <= fuel)%nat ->
  (forall pre post, addresses frags = pre ++ 0 :: post -> keep 0 = true \/ filter keep post <> []) ->
  missing fuel rows frags = Some (filter (fun a => negb (keep a)) (addresses frags)).
Proof. exact @missing_spec. Qed.
Print Assumptions C50_missing.

(* Survivors go, in order, to pairwise distinct new addresses that exhaust the new fragments; deleted addresses go to 'gone'; no other address is mentioned. *)
Theorem C50_transpose : forall fuel (live : N -> Prop) row_ids old new,
  old <> [] -> increasing_ids old -> sizes_ok old ->
  sinc row_ids -> (forall a, In a row_ids <-> In a (addresses old) /\ live a) ->
  (row_ids <> [] \/ ~ In 0 (map fst old)) ->
  NoDup (map fst new) -> (forall f, In f new -> fst f < 2 ^ 32 /\ snd f < 2 ^ 32) -> length (addresses new) = length row_ids ->
  (length (addresses old) <= fuel)%nat ->
  exists m, transpose_row_ids fuel row_ids old new = Some m /\
    (forall i a, nth_error row_ids i = Some a -> lookup m a = Some (nth_error (addresses new) i) /\ nth_error (addresses new) i <> None) /\
    (forall a, In a (addresses old) -> ~ live a -> lookup m a = Some None) /\
    (forall a, ~ In a (addresses old) -> lookup m a = None) /\
    (forall a a' b, lookup m a = Some (Some b) -> lookup m a' = Some (Some b) -> a = a') /\
    (forall b, In b (addresses new) -> exists a, In a (addresses old) /\ live a /\ lookup m a = Some (Some b)).
Proof. exact @transpose_spec. Qed.
Print Assumptions C50_transpose.

(* The map preserves the order of addresses. *)
Theorem C50_order : forall fuel (live : N -> Prop) row_ids old new m,
  old <> [] -> increasing_ids old -> sizes_ok old -> sinc row_ids -> (forall a, In a row_ids <-> In a (addresses old) /\ live a) ->
  (row_ids <> [] \/ ~ In 0 (map fst old)) -> increasing_ids new -> sizes_ok new -> (forall f, In f new -> fst f < 2 ^ 32) -> length (addresses new) = length row_ids ->
  (length (addresses old) <= fuel)%nat -> transpose_row_ids fuel row_ids old new = Some m ->
  forall a a' b b', lookup m a = Some (Some b) -> lookup m a' = Some (Some b') -> a < a' -> b < b'.
Proof. exact @transpose_order. Qed.
Print Assumptions C50_order.

(* Without survivors, address 0 is not reported as gone. *)
Theorem C50_all_deleted_refuted : exists m, transpose_row_ids 10 [] [(0, 3)] [] = Some m /\ In 0 (addresses [(0, 3)]) /\ lookup m 0 = None /\ lookup m 1 = Some None.
Proof. exact @all_deleted_refuted. Qed.
Print Assumptions C50_all_deleted_refuted.

(* A fragment without rows makes the map mention addresses that do not exist. *)
Theorem C50_empty_fragment_refuted : exists m, transpose_row_ids 10 [2 ^ 32] [(0, 0); (1, 1)] [(5, 1)] = Some m /\ ~ In 3 (addresses [(0, 0); (1, 1)]) /\ lookup m 3 = Some None.
Proof. exact @empty_fragment_refuted. Qed.
Print Assumptions C50_empty_fragment_refuted.
