(* Properties of manifest names and latest-version lookup (C33, C68) and of bit helpers (C63). *)
From Coq Require Import List Arith NArith ZArith Bool Permutation Sorted.
From Verif Require Import Lib SerdeModel BitsModel BitsProofs NamingModel NamingProofs.
Import ListNotations.
Local Open Scope N_scope.

Theorem C33_parse : forall s v, attached v -> parse_version s (manifest_name s v) = Some v.
Proof. exact @parse_name. Qed.
Print Assumptions C33_parse.

Theorem C33_detect : forall s v, attached v -> detect_scheme (manifest_name s v) = Some s.
Proof. exact @detect_name. Qed.
Print Assumptions C33_detect.

Theorem C33_detached : forall s v, v <= u64_max -> ~ attached v ->
  detect_scheme (manifest_name s v) = Some V2 /\ parse_version s (manifest_name s v) = None.
Proof. exact @detached_name. Qed.
Print Assumptions C33_detached.

Theorem C33_injective : forall s1 s2 v1 v2, attached v1 -> attached v2 -> manifest_name s1 v1 = manifest_name s2 v2 -> s1 = s2 /\ v1 = v2.
Proof. exact @names_injective. Qed.
Print Assumptions C33_injective.

Theorem C33_staging : forall s v u, attached v -> ~ In dot u -> detect_scheme_staging (manifest_name s v ++ u) = s.
Proof. exact @staging_name. Qed.
Print Assumptions C33_staging.

Theorem C33_newest_first : forall v w, attached v -> attached w -> (str_lt (manifest_name V2 v) (manifest_name V2 w) <-> w < v).
Proof. exact @v2_order. Qed.
Print Assumptions C33_newest_first.

Theorem C33_detached_last : forall s s' v w, attached v -> w <= u64_max -> ~ attached w -> str_lt (manifest_name s v) (manifest_name s' w).
Proof. exact @detached_last. Qed.
Print Assumptions C33_detached_last.

Theorem C68_local : forall s l ordered v, only_scheme s l \/ s = V2 /\ with_detached l -> is_latest s l v ->
  current_manifest_path true ordered l = Found v (manifest_name s v) s.
Proof. exact @local_latest. Qed.
Print Assumptions C68_local.

Theorem C68_remote_v1 : forall l ordered v, only_scheme V1 l -> is_latest V1 l v ->
  current_manifest_path false ordered l = Found v (manifest_name V1 v) V1.
Proof. exact @remote_v1_latest. Qed.
Print Assumptions C68_remote_v1.

(* second scheme, ordered listings, without detached manifests *)
Theorem C68_remote_v2_ordered_partial : forall l v, only_scheme V2 l -> listed l -> is_latest V2 l v ->
  current_manifest_path false true l = Found v (manifest_name V2 v) V2.
Proof. exact @remote_v2_latest. Qed.
Print Assumptions C68_remote_v2_ordered_partial.

Theorem C68_remote_v2_unordered_refuted : forall l v w, only_scheme V2 l -> attached v -> attached w -> v <> w ->
  In (manifest_name V2 v) l -> In (manifest_name V2 w) l -> current_manifest_path false false l = LErr.
Proof. exact @unordered_v2_fails_refuted. Qed.
Print Assumptions C68_remote_v2_unordered_refuted.

Theorem C68_detached_refuted : exists l v, with_detached l /\ listed l /\ is_latest V2 l v /\ current_manifest_path false true l = LPanic.
Proof. exact @ordered_detached_refuted. Qed.
Print Assumptions C68_detached_refuted.

Theorem C68_detached_panics_refuted : forall vs d, Forall attached vs -> vs <> [] -> (length vs <= 999)%nat -> d <= u64_max -> ~ attached d ->
  listed (map (manifest_name V2) (vs ++ [d])) -> current_manifest_path false true (map (manifest_name V2) (vs ++ [d])) = LPanic.
Proof. exact @ordered_detached_panics. Qed.
Print Assumptions C68_detached_panics_refuted.

Theorem C63_power_of_two : forall n, 0 < n -> (is_pwr_two n = Some true <-> exists k, n = 2 ^ k).
Proof. exact @pwr_two_exact. Qed.
Print Assumptions C63_power_of_two.

Theorem C63_padding : forall n k, let p := pad_bytes_to n (2 ^ k) in
  (n + p) mod 2 ^ k = 0 /\ p < 2 ^ k /\ forall q, (n + q) mod 2 ^ k = 0 -> p <= q.
Proof. exact @pad_least. Qed.
Print Assumptions C63_padding.

Theorem C63_bits : forall v, 0 < v -> v < 2 ^ 32 -> exists b, log_2_ceil v = Some b /\ v < 2 ^ b /\ forall c, v < 2 ^ c -> b <= c.
Proof. exact @log_2_ceil_bits. Qed.
Print Assumptions C63_bits.

Theorem C63_bits_total : forall v, v < 2 ^ 32 -> (log_2_ceil v = None <-> v = 0).
Proof. exact @log_2_ceil_total. Qed.
Print Assumptions C63_bits_total.
