(* C107: lists through repetition and definition levels. *)
From Coq Require Import List Arith NArith ZArith Bool Permutation Sorted.
From Verif Require Import Lib RepDefModel RepDefProofs RepDefRead RepDefList RepDefListRead RepDefNest.
Import ListNotations.
Local Open Scope nat_scope.

(* A page of one list layer over any nullable structs, with null and empty lists, is read back exactly. Missing: lists of lists with nulls or empty lists, nulls above the list, and a first item null where nothing else marks the lists; refuted below. *)
Theorem C107_page_lists_exact_partial : forall a b p, page_lists_ok a b p -> starts_seen b p ->
  exists l vs os v, write_lists p = Some l /\
    read_layers (repeat KItem b ++ KList :: repeat KItem a) [new_unraveler l] = Some (map GValid vs ++ GList os v :: repeat (GValid None) a) /\
    lists_of os v = flat_map la_lists p /\ length vs = b /\
    nulls (repeat KItem b) vs (total (flat_map la_lists p)) = page_nulls (repeat KItem b) (map la_below p).
Proof. exact @page_lists_exact. Qed.
Print Assumptions C107_page_lists_exact_partial.

(* A page of lists of lists, any depth, is read back exactly if there are no nulls and no empty lists. *)
Theorem C107_nested_exact_partial : forall ks p, p <> [] -> In KList ks -> Forall (narray_ok ks) p ->
  exists l gs, write_nested p = Some l /\ read_layers ks [new_unraveler l] = Some gs /\ Forall2 got_is (page_lens ks p) gs.
Proof. exact @nested_exact. Qed.
Print Assumptions C107_nested_exact_partial.

(* A list of lists whose last list is empty cannot be written. *)
Theorem C107_nested_empty_panics_refuted : exists is b, build_n is = Some b /\ n_lens (nth 0 is (NItem 0)) = Some [1; 0] /\ write_nested [is] = None.
Proof. exact @nested_empty_panics_refuted. Qed.
Print Assumptions C107_nested_empty_panics_refuted.

(* Two empty lists in one list are counted to the wrong list. *)
Theorem C107_nested_empty_moved_refuted : exists is l g1 g2 os, write_nested [is] = Some l /\ n_lens (nth 0 is (NItem 0)) = Some [0; 1; 3] /\ read_layers [KItem; KList; KList] [new_unraveler l] = Some [g1; g2; GList os None] /\ lens os = [0; 2; 2].
Proof. exact @nested_empty_moved_refuted. Qed.
Print Assumptions C107_nested_empty_moved_refuted.

(* Lists of lists of two pages read together get wrong lengths. *)
Theorem C107_nested_pages_refuted : exists p1 p2 l1 l2 g1 g2 os, Forall (narray_ok [KItem; KList; KList]) p1 /\ Forall (narray_ok [KItem; KList; KList]) p2 /\ write_nested p1 = Some l1 /\ write_nested p2 = Some l2 /\
  page_lens [KItem; KList; KList] (p1 ++ p2) = [None; Some [1; 1; 1; 3]; Some [3; 1]] /\ read_layers [KItem; KList; KList] [new_unraveler l1; new_unraveler l2] = Some [g1; g2; GList os None] /\ lens os = [3; 3].
Proof. exact @nested_pages_refuted. Qed.
Print Assumptions C107_nested_pages_refuted.

(* A list that starts with a null item is lost if no list of the page is null or empty. *)
Theorem C107_null_start_refuted : exists p l g os, page_lists_ok 0 1 p /\ write_lists p = Some l /\ flat_map la_lists p = [Some 2] /\ read_layers [KItem; KList] [new_unraveler l] = Some [g; GList os None] /\ lists_of os None = [].
Proof. exact @null_start_refuted. Qed.
Print Assumptions C107_null_start_refuted.

(* A page of empty lists cannot be written if the items have an empty validity. *)
Theorem C107_all_empty_refuted : exists p, Forall (larray_ok 0 1) p /\ p <> [] /\ flat_map la_lists p = [Some 0] /\ write_lists p = None.
Proof. exact @all_empty_refuted. Qed.
Print Assumptions C107_all_empty_refuted.

(* A null struct above a list is read as valid. *)
Theorem C107_null_above_refuted : exists b l g1 g2, obind (add_validity (Some [true; false; true]) 3 new_builder) (fun b => obind (add_offsets [0; 1; 1; 2] (Some [true; false; true]) b) (add_validity (Some [true; true]) 2)) = Some b /\
  serialize [b] = Some l /\ read_layers [KItem; KList; KItem] [new_unraveler l] = Some [g1; g2; GValid (Some [true; true; true])].
Proof. exact @null_above_refuted. Qed.
Print Assumptions C107_null_above_refuted.
