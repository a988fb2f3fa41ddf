(* C132: how the arrays of a column are gathered into pages. *)
From Coq Require Import List Arith NArith ZArith Bool Permutation Sorted.
From Verif Require Import Lib PageModel PageProofs ListEncModel ListEncProofs ListEncRead AccumModel AccumProofs.
Import ListNotations.
Local Open Scope nat_scope.

Theorem C132_column20_exact : forall A V (op : ops A) (rows : A -> list V) cache keep max_page l, lawful op rows -> (0 < max_page)%N -> exists pages, column20 op cache keep max_page empty_queue 0%N l = Some pages /\
  forall rs, ascending rs (length (flat_map (fun p => rows (fst p)) l)) -> read_column (map (page_rows rows) pages) rs = Some (wanted (flat_map (fun p => rows (fst p)) l) rs).
Proof. exact @column20_exact. Qed.
Print Assumptions C132_column20_exact.

Theorem C132_lists20_exact : forall V opo (opi : ops (list V)) cache keep max_page (l : list (larr V * N)), (forall p, o_copy opo p = p) -> lawful opi (fun x => x) -> (0 < max_page)%N -> Forall (fun p => array_ok (fst p)) l ->
  exists opages ipages, column_lists20 opo opi cache keep max_page empty_queue empty_queue 0%N l = Some (opages, ipages) /\
  (forall rs, ordered rs (length (flat_map (fun p => lists_of (fst p)) l)) -> read_lists opages (read_column (map (@concat V) ipages)) rs = Some (wanted (flat_map (fun p => lists_of (fst p)) l) rs)) /\
  exists groups igs, concat groups = map fst l /\ opages = map encode_page groups /\ concat igs = ipages /\ Forall2 (fun g ig => concat (concat ig) = flat_map items_of g) groups igs.
Proof. exact @lists20_exact. Qed.
Print Assumptions C132_lists20_exact.

Theorem C132_column21_exact : forall A D V (op : ops A) (rows : A -> list V) cache keep (l : list (A * D * N)), lawful op rows -> (sum_rows l < NO_ROW)%N -> exists groups, concat groups = l /\ tiled rows 0%N (column21 op cache keep empty_queue [] 0%N l) groups.
Proof. exact @column21_exact. Qed.
Print Assumptions C132_column21_exact.

Theorem C132_held_bounded : forall A (op : ops A) cache keep l, (forall a, o_mem op (o_copy op a) <= o_mem op a)%N -> (mem_of op (q_arrays (held op cache keep l)) <= cache)%N.
Proof. exact @held_bounded. Qed.
Print Assumptions C132_held_bounded.

(* missing from C132: arrays that do not cut evenly and arrays without rows, for which it is false *)
Theorem C132_nonempty_partial : forall A V (op : ops A) (rows : A -> list V) cache keep max_page l pages, lawful op rows -> Forall (fun p => cuts_evenly op rows max_page (fst p)) l ->
  column20 op cache keep max_page empty_queue 0%N l = Some pages -> Forall (fun p => page_rows rows p <> []) pages.
Proof. exact @column20_nonempty. Qed.
Print Assumptions C132_nonempty_partial.

Theorem C132_empty_page_refuted : exists l, Forall (fun p : list N * N => fst p <> []) l /\ lawful words (fun x => x) /\ column20 words 0%N true 11%N empty_queue 0%N l = Some [[[1; 2]]; [[3; 4]]; [[5]]; [[]]]%N.
Proof. exact @empty_page_refuted. Qed.
Print Assumptions C132_empty_page_refuted.

Theorem C132_packed_empty_refuted : exists (op : ops PackModel.sarr) ts a pages, PackModel.s_len a = 0 /\ column20 op 100%N true 1000%N empty_queue 0%N [(a, 1%N)] = Some pages /\ Exists (fun p => PackModel.write_packed ts p = None) pages.
Proof. exact @packed_empty_refuted. Qed.
Print Assumptions C132_packed_empty_refuted.
