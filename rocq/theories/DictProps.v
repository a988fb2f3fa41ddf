(* C122: pages with a dictionary. *)
From Coq Require Import List Arith NArith ZArith Bool Permutation Sorted.
From Verif Require Import Lib SchedModel SerdeModel FullZipModel MiniModel DictModel DictProofs DictExamples.
Import ListNotations.
Local Open Scope nat_scope.

(* whatever the estimate.  Missing from C122: more values than that, nulls, lists of a fixed size, 64-bit offsets and reads of no items, for which it is false *)
Theorem C122_few_values_partial : forall estimate debug b vals sel, holds b vals -> uses_dictionary estimate b = true -> distinct_at_most 255 vals -> (N.of_nat (length (concat vals)) < 2147483648)%N ->
  sel <> [] -> Forall (fun i => i < length vals) sel ->
  exists is k buf, encode_page estimate debug b = Done (WithDict is k buf) /\ read_items is k buf sel = Some (map (fun i => nth i vals []) sel).
Proof. exact @few_values. Qed.
Print Assumptions C122_few_values_partial.

(* without checked arithmetic 256 values of a fixed width are still read back *)
Theorem C122_fixed_256_partial : forall estimate vals sel, Forall (fun v => length v = 16) vals -> uses_dictionary estimate (BFixed 128 vals) = true -> distinct_at_most 256 vals -> (N.of_nat (length (concat vals)) < 2147483648)%N ->
  sel <> [] -> Forall (fun i => i < length vals) sel ->
  exists is k buf, encode_page estimate false (BFixed 128 vals) = Done (WithDict is k buf) /\ read_items is k buf sel = Some (map (fun i => nth i vals []) sel).
Proof. exact @fixed_256. Qed.
Print Assumptions C122_fixed_256_partial.

Theorem C122_many_values_checked : forall estimate b vals, holds b vals -> uses_dictionary estimate b = true -> distinct_more 255 vals -> encode_page estimate true b = Panic.
Proof. exact @many_values_checked. Qed.
Print Assumptions C122_many_values_checked.

(* silent corruption: a value after the 256th different one reads back as another *)
Theorem C122_many_values_unchecked : forall estimate b vals, holds b vals -> uses_dictionary estimate b = true -> distinct_more 256 vals -> (N.of_nat (length (concat vals)) < 2147483648)%N -> (N.of_nat (length vals) < 268435456)%N ->
  exists is k buf i, encode_page estimate false b = Done (WithDict is k buf) /\ i < length vals /\ read_items is k buf [i] <> Some [nth i vals []].
Proof. exact @many_values_unchecked. Qed.
Print Assumptions C122_many_values_unchecked.

(* nothing of the page can be read *)
Theorem C122_strings_256 : forall estimate offs data vals sel, var_values offs data = Some vals -> uses_dictionary estimate (BVar 32 offs data) = true -> distinct_at_most 256 vals -> distinct_more 255 vals ->
  (N.of_nat (length (concat vals)) < 2147483648)%N ->
  exists is k buf, encode_page estimate false (BVar 32 offs data) = Done (WithDict is k buf) /\ read_items is k buf sel = None.
Proof. exact @strings_256. Qed.
Print Assumptions C122_strings_256.

Theorem C122_other_blocks : forall estimate debug b, uses_dictionary estimate b = true ->
  (exists inner valid, b = BNullable inner valid) \/ (exists dim child, b = BFsl dim child) \/ (exists offs data, b = BVar 64 offs data) -> encode_page estimate debug b = Panic.
Proof. exact @other_blocks. Qed.
Print Assumptions C122_other_blocks.

Theorem C122_no_items : forall is k buf, read_items is k buf [] = None.
Proof. exact @no_items. Qed.
Print Assumptions C122_no_items.

Theorem C122_estimate_refuted : exists estimate b vals is k buf, holds b vals /\ encode_page estimate false b = Done (WithDict is k buf) /\ read_items is k buf [256] = Some [nth 0 vals []] /\ nth 256 vals [] <> nth 0 vals [] /\
  encode_page estimate true b = Panic.
Proof. exact @estimate_refuted. Qed.
Print Assumptions C122_estimate_refuted.

Theorem C122_nulls_refuted : uses_dictionary exact with_null = true /\ forall debug, encode_page exact debug with_null = Panic.
Proof. exact @nulls_refuted. Qed.
Print Assumptions C122_nulls_refuted.

Theorem C122_large_strings_refuted : exists b, num_values b = 20 /\ uses_dictionary exact b = true /\ forall debug, encode_page exact debug b = Panic.
Proof. exact @large_strings_refuted. Qed.
Print Assumptions C122_large_strings_refuted.

Theorem C122_fixed_lists_refuted : exists b, num_values b = 10 /\ uses_dictionary exact b = true /\ forall debug, encode_page exact debug b = Panic.
Proof. exact @fixed_lists_refuted. Qed.
Print Assumptions C122_fixed_lists_refuted.

Theorem C122_empty_lists_refuted : exists b is k buf, encode_page exact true b = Done (WithDict is k buf) /\ read_items is k buf [0] <> None /\ read_items is k buf [] = None.
Proof. exact @empty_lists_refuted. Qed.
Print Assumptions C122_empty_lists_refuted.
