(* Properties of the python samplers (C57, C58, C69). *)
From Coq Require Import List Arith NArith ZArith Bool Permutation Sorted.
From Verif Require Import Lib SamplerModel SamplerProofs.
Import ListNotations.
Local Open Scope nat_scope.

Theorem C57_fragments_partition : forall {F} (fragments : list F) world, 0 < world ->
  Permutation (flat_map (fun rank => shard_fragments fragments rank world) (seq 0 world)) fragments.
Proof. exact @fragments_partition. Qed.
Print Assumptions C57_fragments_partition.

Theorem C57_rows_partition : forall w b total (ranges : nat -> list (nat * nat)), 0 < w -> 0 < b ->
  (forall rank, rank < w -> Permutation (ranges rank) (gen_ranges rank w b total)) ->
  Permutation (flat_map (fun rank => flat_map range_rows (ranges rank)) (seq 0 w)) (seq 0 total).
Proof. exact @rows_partition. Qed.
Print Assumptions C57_rows_partition.

(* the shuffle buffer of a rank delivers each of its batches exactly once *)
Theorem C57_shuffle_buffer : forall {A} k (heap s out : list A), reservoir k heap s out -> Permutation (heap ++ s) out.
Proof. exact @reservoir_perm. Qed.
Print Assumptions C57_shuffle_buffer.

(* full claim: exactly n rows; the bounds are what holds *)
Theorem C58_unfiltered_partial : forall total n batch_size max_takes rnd, 0 < max_takes -> max_takes < n -> n < total ->
  rnd_ok (pyrange 0 total (total / max_takes)) (total / max_takes) (n / max_takes) total rnd ->
  exists out, efficient_sample total n batch_size max_takes rnd = Some out /\ NoDup (concat out) /\ (forall x, In x (concat out) -> x < total) /\
    n - n mod max_takes <= length (concat out) < n + n / max_takes /\ (n mod max_takes = 0 -> length (concat out) = n).
Proof. exact @efficient_sample_spec. Qed.
Print Assumptions C58_unfiltered_partial.

Theorem C58_too_few_refuted : exists total n b mt rnd out, mt < n /\ n < total /\ rnd_ok (pyrange 0 total (total / mt)) (total / mt) (n / mt) total rnd /\
  efficient_sample total n b mt rnd = Some out /\ length (concat out) < n.
Proof. exact @sample_too_few_refuted. Qed.
Print Assumptions C58_too_few_refuted.

Theorem C58_too_many_refuted : exists total n b mt rnd out, mt < n /\ n < total /\ rnd_ok (pyrange 0 total (total / mt)) (total / mt) (n / mt) total rnd /\
  efficient_sample total n b mt rnd = Some out /\ n < length (concat out).
Proof. exact @sample_too_many_refuted. Qed.
Print Assumptions C58_too_many_refuted.

(* the branch of maybe_sample that picks n row numbers delivers exactly these *)
Theorem C58_choice : forall {A} b (choices : list A), 0 < b -> concat (choice_batches (S (length choices)) b 0 choices) = choices.
Proof. exact @choice_all. Qed.
Print Assumptions C58_choice.

Theorem C58_choice_sizes : forall {A} b fuel (choices : list A) idx, 0 < b -> length choices - idx < fuel ->
  concat (choice_batches fuel b idx choices) = skipn idx choices /\ (forall p, In p (choice_batches fuel b idx choices) -> 0 < length p <= b).
Proof. exact @choice_spec. Qed.
Print Assumptions C58_choice_sizes.

(* reservoir_sampling keeps min(k, number of items) of the items *)
Theorem C58_reservoir : forall {A} k (heap s out : list A), keep_heap k heap s out -> length heap <= k ->
  length out = Nat.min k (length heap + length s) /\ exists dropped, Permutation (heap ++ s) (out ++ dropped).
Proof. exact @keep_heap_spec. Qed.
Print Assumptions C58_reservoir.

(* full claim: n rows, or all matching rows if there are fewer; only soundness holds in general *)
Theorem C58_filtered_partial : forall total n b tt keep shards, NoDup shards ->
  let out := concat (filtered_sample total n b tt keep shards) in
  NoDup out /\ length out <= n /\ forall x, In x out -> x < total /\ keep x = true.
Proof. exact @filtered_sample_sound. Qed.
Print Assumptions C58_filtered_partial.

(* exact behaviour for batch_size >= n: all or nothing *)
Theorem C58_filtered_one_batch : forall total n b tt keep shards, 0 < n -> n <= b ->
  filtered_sample total n b tt keep shards =
  let matches := flat_map (fun s => filter keep (shard_rows total (ceil_div n tt) s)) shards in
  if n <=? length matches then [firstn n matches] else [].
Proof. exact @filtered_sample_one_batch. Qed.
Print Assumptions C58_filtered_one_batch.

Theorem C58_shards_cover : forall total n tt, 0 < ceil_div n tt ->
  flat_map (shard_rows total (ceil_div n tt)) (seq 0 (num_shards total n tt)) = seq 0 total.
Proof. exact @shards_cover. Qed.
Print Assumptions C58_shards_cover.

Theorem C58_few_matches_refuted : exists total n b tt keep shards, Permutation shards (seq 0 (num_shards total n tt)) /\ n < total /\
  length (filter keep (seq 0 total)) = 4 /\ n = 5 /\ filtered_sample total n b tt keep shards = [].
Proof. exact @filtered_few_matches_refuted. Qed.
Print Assumptions C58_few_matches_refuted.

Theorem C58_leftover_refuted : exists total n b tt keep shards, Permutation shards (seq 0 (num_shards total n tt)) /\ n < total /\
  filter keep (seq 0 total) = seq 0 total /\ n = 10 /\ length (concat (filtered_sample total n b tt keep shards)) = 4.
Proof. exact @filtered_leftover_refuted. Qed.
Print Assumptions C58_leftover_refuted.

Theorem C69_shard_scan : forall {A} rank w b (batches : list (list A)) out, 0 < w -> 0 < b -> shard_scan rank w b batches = Some out ->
  concat out = take_idx (concat batches) (pyrange rank (length (concat batches)) w) /\
  (forall p, In p out -> 0 < length p <= b) /\ (forall p, In p (removelast out) -> length p = b).
Proof. exact @shard_scan_spec. Qed.
Print Assumptions C69_shard_scan.

(* full claim: without the hypothesis that every rank's scan succeeds *)
Theorem C69_filtered_partition_partial : forall {A} w b (batches : list (list A)) (outs : nat -> list (list A)), 0 < w -> 0 < b ->
  (forall rank, rank < w -> shard_scan rank w b batches = Some (outs rank)) ->
  Permutation (flat_map (fun rank => concat (outs rank)) (seq 0 w)) (concat batches).
Proof. exact @filtered_partition. Qed.
Print Assumptions C69_filtered_partition_partial.

Theorem C69_scan_succeeds : forall {A} rank w b (batches : list (list A)), 0 < w -> 0 < b -> rank < w -> Forall (fun x => w - 1 <= length x) batches ->
  rank < length (concat batches) -> exists out, shard_scan rank w b batches = Some out.
Proof. exact @shard_scan_ok. Qed.
Print Assumptions C69_scan_succeeds.

Theorem C69_short_batch_refuted : exists (batches : list (list nat)), shard_scan 2 3 10 batches = None /\ length (concat batches) = 5.
Proof. exact @short_batch_refuted. Qed.
Print Assumptions C69_short_batch_refuted.

Theorem C69_no_rows_refuted : exists (batches : list (list nat)), shard_scan 1 2 10 batches = None /\ shard_scan 0 2 10 batches = Some [[0]].
Proof. exact @no_rows_refuted. Qed.
Print Assumptions C69_no_rows_refuted.
