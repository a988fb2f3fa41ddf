(* C110-C112: full-text search. *)
From Coq Require Import List Arith NArith ZArith QArith Bool Lia Permutation Sorted.
From Verif Require Import Lib FtsModel FtsProofs FtsPhrase FtsIndex FtsIndexProofs FtsSearch FtsPlan FtsExamples.
Import ListNotations.
Local Open Scope nat_scope.

(* what is asked of sorting, of the heap and of the weights *)
Definition sorts (srt : list piter -> list piter) : Prop := (forall l, Permutation (srt l) l) /\ forall l, StronglySorted (fun a b => it_leb a b = true) (srt l).
Definition pops_least (popmin : list (N * Q) -> list (N * Q)) : Prop := forall l, l <> [] -> exists x, Permutation l (x :: popmin l) /\ forall y, In y l -> (snd x <= snd y)%Q.
Definition ranks (rank : list (N * Q) -> list (N * Q)) : Prop := (forall l, Permutation (rank l) l) /\ forall l, StronglySorted (fun a b => (snd b <= snd a)%Q) (rank l).
Definition weights (weight : nat -> nat -> Q) : Prop := forall a b, a <= b -> (0 <= weight a b)%Q.
Example can_be_met : sorts sort_iters /\ pops_least pop_least /\ ranks sort_scores /\ weights weight0.
Proof.
  split; [split; [apply sort_iters_perm | apply sort_iters_sorted]|]. split; [exact pop_least_ok|]. split; [split; [apply sort_scores_perm | apply sort_scores_sorted] | exact weight0_ok].
Qed.

(* The pruned search over any posting lists with valid bounds and any factor up to one: the best rows by the sum of what the lists give. *)
Theorem C110_wand_top : forall sel idf scorer scale srt popmin lists limit, sorts srt -> pops_least popmin -> (forall q, (0 <= q -> scale q <= q)%Q) -> Forall (list_ok idf scorer) lists ->
  exists res, wand_search sel idf scorer scale srt popmin false limit lists = Some res /\ is_top limit (matches sel lists) (row_score idf scorer lists) res.
Proof. intros sel idf scorer scale srt popmin lists limit [A B] P S F. exact (search_top sel idf scorer scale srt popmin A B P S lists F limit). Qed.
Print Assumptions C110_wand_top.

(* After any updates with new rows and remaps to unused rows, a search for tokens gives the best selected rows by BM25 over the documents. *)
Theorem C110_search_top : forall weight srt popmin ix D sel limit q, weights weight -> sorts srt -> pops_least popmin -> built weight ix D ->
  exists res, ix_search weight srt popmin ix sel false limit q = Some res /\ is_top limit (fun r => sel r = true /\ has_token D q r) (score_of weight D q) res.
Proof. intros weight srt popmin ix D sel limit q W [A B] P H. exact (index_search_top weight W srt popmin A B P ix D sel limit q (built_represents _ _ _ W H)). Qed.
Print Assumptions C110_search_top.

(* Such an index holds the postings, lengths and bounds of its documents; a bound computed with a stale total after a remap is valid. *)
Theorem C110_index_holds : forall weight ix D, weights weight -> built weight ix D -> represents weight ix D.
Proof. intros weight ix D W H. exact (built_represents _ _ _ W H). Qed.
Print Assumptions C110_index_holds.

(* With a factor above one the best row can be left out; this is what the factor is for. *)
Theorem C110_factor_refuted : ~ forall ix D sel limit q res, built weight0 ix D ->
  wand_search sel (fun n => weight0 n (ds_len (ix_docs ix))) (bm25 (ix_docs ix)) (fun s => (2 * s)%Q) sort_iters pop_least false limit (known ix q) = Some res ->
  is_top limit (fun r => sel r = true /\ has_token D q r) (score_of weight0 D q) res.
Proof. exact factor_refuted. Qed.
Print Assumptions C110_factor_refuted.

(* The phrase search over any posting lists: the best rows with the tokens that have a selected row, at their places. *)
Theorem C111_phrase_lists : forall sel idf scorer scale srt popmin lists limit, sorts srt -> pops_least popmin -> (forall q, (0 <= q -> scale q <= q)%Q) -> Forall (list_ok idf scorer) lists -> Forall positions_ok lists ->
  exists res, wand_search sel idf scorer scale srt popmin true limit lists = Some res /\ is_top limit (phrase_match sel (live_keys sel lists)) (row_score idf scorer lists) res.
Proof. intros sel idf scorer scale srt popmin lists limit [A B] P S F G. exact (phrase_top sel idf scorer scale srt popmin A B P S lists F limit G). Qed.
Print Assumptions C111_phrase_lists.

(* When every token of the phrase that the index knows is in a selected row: the best selected rows with the phrase.
   Missing: tokens only in rows the filter leaves out, and words the tokenizer takes out, refuted below. *)
Theorem C111_phrase_partial : forall weight srt popmin ix D sel limit q, weights weight -> sorts srt -> pops_least popmin -> built weight ix D ->
  (forall t, In t q -> find_list t (ix_lists ix) <> None -> exists d, In d D /\ sel (dc_row d) = true /\ occurs t d <> 0) ->
  exists res, ix_search weight srt popmin ix sel true limit q = Some res /\ is_top limit (fun r => sel r = true /\ q <> [] /\ has_phrase D q r) (phrase_score weight D q) res.
Proof. intros weight srt popmin ix D sel limit q W [A B] P H L. exact (index_phrase_top weight W srt popmin A B P ix D sel limit q (built_represents _ _ _ W H) L). Qed.
Print Assumptions C111_phrase_partial.

(* A text whose tokens follow one another is found when searched as a phrase. *)
Theorem C111_text_found : forall ix D d, built weight0 ix D -> In d D -> dc_toks d <> [] ->
  (forall k t z, nth_error (dc_toks d) k = Some (t, z) -> z = Z.of_nat k) ->
  exists res, search0 ix (fun _ => true) true (length D) (map fst (dc_toks d)) = Some res /\ In (dc_row d) (map fst res).
Proof. exact phrase_of_text. Qed.
Print Assumptions C111_text_found.

(* A token whose rows are all filtered out or deleted is dropped from the phrase: rows without it are returned. *)
Theorem C111_filtered_token_refuted : ~ forall ix D sel limit q res, built weight0 ix D -> search0 ix sel true limit q = Some res ->
  forall r s, In (r, s) res -> has_phrase D q r.
Proof. exact phrase_filtered_refuted. Qed.
Print Assumptions C111_filtered_token_refuted.

(* A text that lost a word between two others (a stop word, a long word) is not found when searched as a phrase. *)
Theorem C111_gap_refuted : ~ forall ix D d limit, built weight0 ix D -> In d D -> dc_toks d <> [] -> 0 < limit ->
  exists res, search0 ix (fun _ => true) true limit (map fst (dc_toks d)) = Some res /\ res <> [].
Proof. exact phrase_gap_refuted. Qed.
Print Assumptions C111_gap_refuted.

Section Plan.
  Variables (weight : nat -> nat -> Q) (srt : list piter -> list piter) (popmin rank : list (N * Q) -> list (N * Q)).
  Hypotheses (W : weights weight) (S : sorts srt) (P : pops_least popmin) (R : ranks rank).

  Lemma columns_represent : forall cols Ds, Forall2 (fun c D => built weight (cl_index c) D) cols Ds -> Forall2 (fun c D => represents weight (cl_index c) D) cols Ds.
  Proof. intros cols Ds F. induction F; constructor; auto. apply built_represents; auto. Qed.

  (* A query without a phrase over several columns, some rows outside the indices: the best rows by their greatest score, best first; all of them without a limit. *)
  Theorem C112_query_top : forall cols Ds sel limit q, Forall2 (fun c D => built weight (cl_index c) D) cols Ds ->
    exists res, fts weight srt popmin rank cols sel false limit q = Some res /\ best_rows limit (query_hit weight sel q cols Ds) res.
  Proof. destruct S as [A B], R as [C D]. intros. apply query_top; auto. apply columns_represent; auto. Qed.
  (* The same through the scan with a limit and no offset. Missing: limit with offset, refuted below. *)
  Theorem C112_scan_partial : forall cols Ds sel limit q, Forall2 (fun c D => built weight (cl_index c) D) cols Ds ->
    exists res, scan_fts weight srt popmin rank cols sel false limit None q = Some res /\ best_rows limit (query_hit weight sel q cols Ds) res.
  Proof. destruct S as [A B], R as [C D]. intros. apply scan_top; auto. apply columns_represent; auto. Qed.
  (* An offset without a limit skips the best rows. *)
  Theorem C112_scan_offset : forall cols Ds sel offset q, Forall2 (fun c D => built weight (cl_index c) D) cols Ds ->
    exists res, scan_fts weight srt popmin rank cols sel false None (Some offset) q = Some (skipn offset res) /\ best_rows None (query_hit weight sel q cols Ds) res.
  Proof. destruct S as [A B], R as [C D]. intros. apply scan_offset; auto. apply columns_represent; auto. Qed.
  (* What a limit with an offset gives: the best limit rows without the first offset of them. *)
  Theorem C112_scan_limit_offset : forall cols Ds sel limit offset q, Forall2 (fun c D => built weight (cl_index c) D) cols Ds ->
    exists res, scan_fts weight srt popmin rank cols sel false (Some limit) (Some offset) q = Some (skipn offset res) /\ best_rows (Some limit) (query_hit weight sel q cols Ds) res.
  Proof. destruct S as [A B], R as [C D]. intros. apply scan_limit_offset; auto. apply columns_represent; auto. Qed.
End Plan.
Print Assumptions C112_query_top.
Print Assumptions C112_scan_partial.
Print Assumptions C112_scan_offset.
Print Assumptions C112_scan_limit_offset.

(* A row outside the index is found exactly if it has a token of the query, when the index has a document and weights are positive. *)
Theorem C112_unindexed_found : forall weight ix D q d, (forall a b, a <= b -> (0 < weight a b)%Q) -> built weight ix D -> D <> [] ->
  ((0 < flat_score weight ix q d)%Q <-> exists t z, In t q /\ In (t, z) (dc_toks d)).
Proof. intros weight ix D q d W H NE. apply (flat_hit weight W ix D q d); auto. apply built_represents; auto. intros a b L. apply Qlt_le_weak. auto. Qed.
Print Assumptions C112_unindexed_found.

(* A query with limit 2 and offset 1 gives one row though three match. *)
Theorem C112_limit_offset_refuted : ~ forall cols Ds sel limit offset q res all, Forall2 (fun c D => built weight0 (cl_index c) D) cols Ds ->
  scan0 cols sel false (Some limit) (Some offset) q = Some res -> fts0 cols sel false None q = Some all -> length res = Nat.min limit (length all - offset).
Proof. exact limit_offset_refuted. Qed.
Print Assumptions C112_limit_offset_refuted.

(* A phrase query returns rows outside the index that do not have the phrase. *)
Theorem C112_phrase_unindexed_refuted : ~ forall c D sel limit q res, built weight0 (cl_index c) D -> fts0 [c] sel true limit q = Some res ->
  forall r s, In (r, s) res -> has_phrase (D ++ cl_rest c) q r.
Proof. exact phrase_unindexed_refuted. Qed.
Print Assumptions C112_phrase_unindexed_refuted.

(* One text scores differently inside and outside the index. *)
Theorem C112_unindexed_score_refuted : ~ forall ix D q d d', built weight0 ix D -> In d D -> dc_toks d' = dc_toks d -> (flat_score weight0 ix q d' == score_of weight0 D q (dc_row d))%Q.
Proof. exact unindexed_score_refuted. Qed.
Print Assumptions C112_unindexed_score_refuted.
