(* Page statistics and the filtered scans that use them (C115, C116). *)
From Coq Require Import List Arith NArith ZArith Bool Permutation Sorted.
From Verif Require Import Lib AMap RowIdsModel RowIdsSpec SeqProofs SerdeModel ReadParamsModel TreeMapModel DeletionModel StreamModel StatsModel StatsProofs StatsBytes StatsCollect PushModel PushProofs PushScan PushExamples.
Import ListNotations.
Local Open Scope nat_scope.

(* every page has statistics, with bounds in order; the null count is right except for booleans; values other than NaN are above the lower bound and, except for strings, below the upper one *)
Theorem C115_statistics_exist : forall t arrays, arrays <> [] -> sane t -> Forall (typed_array t) arrays ->
  exists st, collect_statistics t arrays = Some st /\ ordered st /\
    (t <> TBool -> st_nulls st = count_nulls (concat arrays)) /\
    (forall v m, In (Some v) (concat arrays) -> good_value t v -> st_min st = Some m -> vle m v) /\
    (forall v m, In (Some v) (concat arrays) -> good_value t v -> t <> TUtf8 -> st_max st = Some m -> vle v m).
Proof. exact @collect_total. Qed.
Print Assumptions C115_statistics_exist.

(* the null count and both bounds are right when there are no NaNs, no string is cut inside a character, and a boolean page is one batch or has one value *)
Theorem C115_statistics_cover_partial : forall t arrays st, sane t -> Forall (typed_array t) arrays -> plain t arrays ->
  collect_statistics t arrays = Some st -> covers st (concat arrays).
Proof. exact @collect_covers. Qed.
Print Assumptions C115_statistics_cover_partial.

(* integers, dates, decimals and binary values *)
Theorem C115_exact_types_cover : forall t arrays st, match t with TInt _ _ | TBinary => True | _ => False end ->
  sane t -> Forall (typed_array t) arrays -> collect_statistics t arrays = Some st -> covers st (concat arrays).
Proof. exact @exact_types_cover. Qed.
Print Assumptions C115_exact_types_cover.

(* the bounds of an integer page are values of the page *)
Theorem C115_integers_tight : forall lo hi arrays st v, (lo <= hi)%Z -> Forall (typed_array (TInt lo hi)) arrays ->
  collect_statistics (TInt lo hi) arrays = Some st -> In (Some v) (concat arrays) ->
  exists mn mx, st_min st = Some mn /\ st_max st = Some mx /\ In (Some mn) (concat arrays) /\ In (Some mx) (concat arrays).
Proof. exact @integers_tight. Qed.
Print Assumptions C115_integers_tight.

(* a NaN lies above the upper bound *)
Theorem C115_nan_refuted : exists inf arrays st, Forall (typed_array (TFloat inf)) arrays /\ arrays <> [] /\
  collect_statistics (TFloat inf) arrays = Some st /\ ~ bounds st (concat arrays).
Proof. exact @nan_outside. Qed.
Print Assumptions C115_nan_refuted.

(* a string cut inside a character may lie above the upper bound *)
Theorem C115_string_cut_refuted : exists arrays st, Forall (typed_array TUtf8) arrays /\ arrays <> [] /\
  collect_statistics TUtf8 arrays = Some st /\ ~ bounds st (concat arrays).
Proof. exact @string_outside. Qed.
Print Assumptions C115_string_cut_refuted.

(* nulls of later batches are missed *)
Theorem C115_boolean_nulls_refuted : exists arrays st, Forall (typed_array TBool) arrays /\ arrays <> [] /\
  collect_statistics TBool arrays = Some st /\ StatsModel.st_nulls st = 0%N /\ In None (concat arrays).
Proof. exact @boolean_nulls_missed. Qed.
Print Assumptions C115_boolean_nulls_refuted.

(* a missing bound of a non-nullable column makes the write panic *)
Theorem C115_nonnull_bound_refuted : exists f p, f_nullable f = false /\ p <> [] /\ Forall (typed_array (f_type f)) (arrays_of (f_id f) p) /\
  (forall r, In r (page_rows p) -> r (f_id f) <> None) /\
  (exists st, collect_statistics (f_type f) (arrays_of (f_id f) p) = Some st /\ finish_stats f [st] = None).
Proof. exact @bound_missing. Qed.
Print Assumptions C115_nonnull_bound_refuted.

(* any predicate language with a sound simplifier, pages with right statistics, row ids that are addresses or one page per fragment: the scan returns the surviving rows that satisfy the predicate, in order, with their ids and addresses *)
Theorem C116_scan_exact_partial : forall {L : lang} gs k (e : expr L), lang_ok L -> (forall g, In g gs -> scan_ok g k e) ->
  pushdown_scan gs k e = Ok (flat_map (fun g => want g k (holds e)) gs).
Proof. exact @pushdown_exact. Qed.
Print Assumptions C116_scan_exact_partial.

(* the simplified predicate of each page holds for the same rows of the page *)
Theorem C116_predicates_agree : forall {L : lang} g k (e : expr L), lang_ok L -> scan_ok g k e -> exists es, simplified_predicates g e = Some es /\
  Forall2 (fun p e' => forall r, In r (page_rows p) -> holds e' r = holds e r) (g_pages g) es.
Proof. exact @predicates_agree. Qed.
Print Assumptions C116_predicates_agree.

(* a language with comparisons, null tests and conjunction whose simplifier is sound *)
Theorem C116_simplifier_exists : lang_ok demo.
Proof. exact @demo_ok. Qed.
Print Assumptions C116_simplifier_exists.

Theorem C116_nan_refuted : exists g k (e : expr demo) rows, legal g /\ ids_ok g k /\
  frag_scan g k e = Ok rows /\ length rows < length (want g k (holds e)).
Proof. exact @nan_lost. Qed.
Print Assumptions C116_nan_refuted.

Theorem C116_null_refuted : exists g k (e : expr demo) rows, legal g /\ ids_ok g k /\
  frag_scan g k e = Ok rows /\ length rows < length (want g k (holds e)).
Proof. exact @null_lost. Qed.
Print Assumptions C116_null_refuted.

Theorem C116_string_refuted : exists g k (e : expr demo) rows, legal g /\ ids_ok g k /\
  frag_scan g k e = Ok rows /\ length rows < length (want g k (holds e)).
Proof. exact @string_lost. Qed.
Print Assumptions C116_string_refuted.

Theorem C116_stable_ids_refuted : exists g k (e : expr demo) rows q, legal g /\ g_seq g = Some q /\ seq_wf q /\ length (seq_iter q) = length (rows_of g) /\
  frag_scan g k e = Ok rows /\ map u_id rows <> map u_id (want g k (holds e)).
Proof. exact @ids_wrong. Qed.
Print Assumptions C116_stable_ids_refuted.
