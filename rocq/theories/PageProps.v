(* C102 and C103: reading pages of columns and lists of file format 2.0. *)
From Coq Require Import List Arith NArith ZArith Bool Permutation Sorted.
From Verif Require Import Lib PageModel PageProofs ListEncModel ListEncProofs ListEncRead.
Import ListNotations.
Local Open Scope nat_scope.

(* Ranges in order, which may repeat the last row of the one before, are read exactly. *)
Theorem C102_read_exact : forall A (pages : list (list A)) rs, ascending rs (length (concat pages)) -> read_column pages rs = Some (wanted (concat pages) rs).
Proof. exact @read_exact. Qed.
Print Assumptions C102_read_exact.

(* Sorted indices, which may repeat, are taken exactly. Missing: indices in any order, refuted below. *)
Theorem C102_take_exact_partial : forall A (pages : list (list A)) d idx, (forall i j, i <= j < length idx -> nth i idx 0 <= nth j idx 0) -> Forall (fun i => i < length (concat pages)) idx ->
  take_column pages idx = Some (map (fun i => nth i (concat pages) d) idx).
Proof. exact @take_exact. Qed.
Print Assumptions C102_take_exact_partial.

(* Indices out of order across pages give rows that were not asked for. *)
Theorem C102_take_unsorted_refuted : exists (pages : list (list nat)) idx,
  Forall (fun i => i < length (concat pages)) idx /\ take_column pages idx <> Some (map (fun i => nth i (concat pages) 0) idx) /\
  take_column pages idx = Some [13; 13; 14].
Proof. exact @take_unsorted_refuted. Qed.
Print Assumptions C102_take_unsorted_refuted.

(* Ranges that overlap by more lose rows at the end of a page. *)
Theorem C102_read_overlap_refuted : exists (pages : list (list nat)) rs,
  Forall (fun r => fst r < snd r /\ snd r <= length (concat pages)) rs /\ (forall i j, i <= j < length rs -> fst (nth i rs (0, 0)) <= fst (nth j rs (0, 0))) /\
  read_column pages rs <> Some (wanted (concat pages) rs).
Proof. exact @read_overlap_refuted. Qed.
Print Assumptions C102_read_overlap_refuted.

(* A list at the start of a page asked for twice is read as empty the second time. *)
Theorem C102_lists_duplicate_refuted : exists (groups : list (list (larr nat))) pages rs, Forall array_ok (concat groups) /\ concat pages = column_items groups /\
  ascending rs (length (column_lists groups)) /\ wanted (column_lists groups) rs = [Some [10; 11]; Some [10; 11]] /\
  read_lists (map encode_page groups) (read_column pages) rs = Some [Some [10; 11]; Some []].
Proof. exact @lists_duplicate_refuted. Qed.
Print Assumptions C102_lists_duplicate_refuted.

(* A page of offsets holds the lengths and the validity of the lists it was given. *)
Theorem C103_encode_page_ok : forall V (arrs : list (larr V)), Forall array_ok arrs -> page_ok (encode_page arrs) (concat (map rows_of arrs)).
Proof. exact @encode_page_ok. Qed.
Print Assumptions C103_encode_page_ok.

(* A column of lists is read as written by any exact reader of its items: ranges in order give exactly their lists, nulls included. *)
Theorem C103_lists_exact : forall V (groups : list (list (larr V))) read, Forall array_ok (concat groups) -> exact_reader (column_items groups) read ->
  exact_reader (column_lists groups) (read_lists (map encode_page groups) read).
Proof. exact @lists_exact. Qed.
Print Assumptions C103_lists_exact.

(* The decoders of the pages read are well formed. *)
Theorem C103_lists_decoders : forall V (groups : list (list (larr V))) read rs, Forall array_ok (concat groups) -> exact_reader (column_items groups) read -> ordered rs (length (column_lists groups)) ->
  exists ds, load_lists (map encode_page groups) read rs = Some ds /\ Forall dec_ok ds.
Proof. exact @lists_decoders. Qed.
Print Assumptions C103_lists_decoders.

(* Columns of values are read exactly. *)
Theorem C103_primitive_reader : forall V (pages : list (list V)), exact_reader (concat pages) (read_column pages).
Proof. exact @primitive_reader. Qed.
Print Assumptions C103_primitive_reader.

(* Hence lists of values. *)
Theorem C103_lists_of_values_exact : forall V (groups : list (list (larr V))) (pages : list (list V)) rs, Forall array_ok (concat groups) -> concat pages = column_items groups -> ordered rs (length (column_lists groups)) ->
  read_lists (map encode_page groups) (read_column pages) rs = Some (wanted (column_lists groups) rs).
Proof. exact @lists_of_values_exact. Qed.
Print Assumptions C103_lists_of_values_exact.

(* Hence lists of lists. *)
Theorem C103_lists_of_lists_exact : forall V (outer : list (list (larr (option (list V))))) (inner : list (list (larr V))) (pages : list (list V)) rs,
  Forall array_ok (concat outer) -> Forall array_ok (concat inner) -> column_items outer = column_lists inner -> concat pages = column_items inner -> ordered rs (length (column_lists outer)) ->
  read_lists (map encode_page outer) (read_lists (map encode_page inner) (read_column pages)) rs = Some (wanted (column_lists outer) rs).
Proof. exact @lists_of_lists_exact. Qed.
Print Assumptions C103_lists_of_lists_exact.

(* A batch has the next lists and leaves the rest. *)
Theorem C103_drain_exact : forall V limit (d : ldec V) n a d', dec_ok d -> n <= length (ld_valid d) -> drain limit d n = Some (a, d') ->
  array_ok a /\ lists_of a = firstn n (dec_lists d) /\ dec_ok d' /\ dec_lists d' = skipn n (dec_lists d) /\ length (ld_valid d') = length (ld_valid d) - n.
Proof. exact @drain_exact. Qed.
Print Assumptions C103_drain_exact.

(* Batches of any sizes give all lists in order, as well-formed arrays. *)
Theorem C103_drain_all_exact : forall V limit ns (d : ldec V) arrs, dec_ok d -> sumn ns = length (ld_valid d) -> drain_all limit d ns = Some arrs ->
  Forall array_ok arrs /\ map (fun a => length (lists_of a)) arrs = ns /\ concat (map lists_of arrs) = dec_lists d.
Proof. exact @drain_all_exact. Qed.
Print Assumptions C103_drain_all_exact.

(* They fail only when a batch has too many items. *)
Theorem C103_drain_all_succeeds : forall V limit ns (d : ldec V), (forall c, limit c = true) -> drain_all limit d ns <> None.
Proof. exact @drain_all_succeeds. Qed.
Print Assumptions C103_drain_all_succeeds.
