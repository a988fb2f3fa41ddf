(* C105 and C106: nulls of nested structs and fixed size lists through definition levels. *)
From Coq Require Import List Arith NArith ZArith Bool Permutation Sorted.
From Verif Require Import Lib RepDefModel RepDefProofs RepDefRead.
Import ListNotations.
Local Open Scope nat_scope.

(* The definition level of every item tells the outermost null above it. *)
Theorem C105_page_levels : forall ks p, page_ok ks p -> ks <> [] -> exists l, write_page p = Some l /\ levels_of ks (page_valids ks p) (page_items p) l.
Proof. exact @write_page_levels. Qed.
Print Assumptions C105_page_levels.

(* A page of nested structs and fixed size lists is read back with the same nulls in every layer. *)
Theorem C105_page_exact : forall ks p, ks <> [] -> page_ok ks p ->
  exists l vs, write_page p = Some l /\ read_layers ks [new_unraveler l] = Some (map GValid vs) /\
    length vs = length ks /\ Forall2 (fun m v => whole m (page_items p) v) (mults 1 ks) vs /\ nulls ks vs (page_items p) = page_nulls ks p.
Proof. exact @page_levels_exact. Qed.
Print Assumptions C105_page_exact.

(* Pages are read back together with the same nulls if the same layers have a validity in all of them. Missing: pages that differ in this, refuted below. *)
Theorem C106_pages_exact_partial : forall ks ps, ks <> [] -> ps <> [] -> Forall (page_ok ks) ps -> (forall p q, In p ps -> In q ps -> flags ks p = flags ks q) ->
  exists ls vs, sequence_opt (map write_page ps) = Some ls /\ read_layers ks (map new_unraveler ls) = Some (map GValid vs) /\
    length vs = length ks /\ Forall2 (fun m v => whole m (sumn (map page_items ps)) v) (mults 1 ks) vs /\
    nulls ks vs (sumn (map page_items ps)) = flat_map (page_nulls ks) ps.
Proof. exact @levels_exact. Qed.
Print Assumptions C106_pages_exact_partial.

(* A page without nulls and one with nulls cannot be read together. *)
Theorem C106_mixed_pages_refuted : exists ks ps ls, ks <> [] /\ Forall (page_ok ks) ps /\ sequence_opt (map write_page ps) = Some ls /\ read_layers ks (map new_unraveler ls) = None.
Proof. exact @mixed_pages_refuted. Qed.
Print Assumptions C106_mixed_pages_refuted.

(* Null structs are read as valid if another page has null items but no null structs. *)
Theorem C106_lost_null_refuted : exists ks ps ls vs, ks <> [] /\ Forall (page_ok ks) ps /\ sequence_opt (map write_page ps) = Some ls /\ read_layers ks (map new_unraveler ls) = Some (map GValid vs) /\
  nth 1 (flat_map (page_nulls ks) ps) None = Some 1 /\ nth 1 (nulls ks vs (sumn (map page_items ps))) None = Some 0.
Proof. exact @lost_null_refuted. Qed.
Print Assumptions C106_lost_null_refuted.
