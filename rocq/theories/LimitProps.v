(* C90: limit, offset and order of a scan. *)
From Coq Require Import List Arith NArith ZArith Bool Permutation Sorted.
From Verif Require Import Lib AMap RowIdsModel SerdeModel ReadParamsModel TreeMapModel DeletionModel StreamModel StreamProofs FragReadModel FragReadProofs LimitModel LimitProofs.
Import ListNotations.
From Coq Require Import Permutation Sorted.
Local Open Scope nat_scope.

(* a scan returns the page of the (ordered) passing rows; missing: an unfiltered ordered page of a v2 table, a limit of 0 without offset on a filtered or v1 scan, and the read conditions of C91 *)
Theorem C90_limit_exact_partial : forall sort legacy ds frags q, query_ok q -> Forall (readable q) frags -> (exists rest, Permutation ds (frags ++ rest)) ->
  (forall le, q_order q = Some le -> sorts sort le) ->
  (q_order q = None \/ q_filter q <> None \/ legacy = true \/ (q_limit q = None /\ q_offset q = None)) ->
  (q_limit q <> Some 0%Z \/ q_offset q <> None \/ (legacy = false /\ q_filter q = None)) ->
  exists out, run_scan sort legacy ds frags q = Ok out /\ answers frags q out.
Proof. exact @limit_exact. Qed.
Print Assumptions C90_limit_exact_partial.

(* what happens instead: the page is cut from the unordered rows and then sorted *)
Theorem C90_order_after_limit : forall sort ds frags q le, query_ok q -> Forall (readable q) frags -> (exists rest, Permutation ds (frags ++ rest)) ->
  q_order q = Some le -> q_filter q = None -> (q_limit q <> None \/ q_offset q <> None) ->
  run_scan sort false ds frags q = Ok (sort le (page (q_limit q) (q_offset q) (table_rows frags q))).
Proof. exact @order_after_limit. Qed.
Print Assumptions C90_order_after_limit.

(* what happens instead: every passing row is returned *)
Theorem C90_zero_limit_ignored : forall sort legacy ds frags q p, query_ok q -> Forall (readable q) frags -> (exists rest, Permutation ds (frags ++ rest)) ->
  q_filter q = Some p -> q_order q = None -> q_limit q = Some 0%Z -> q_offset q = None ->
  run_scan sort legacy ds frags q = Ok (passing frags q).
Proof. exact @zero_limit_ignored. Qed.
Print Assumptions C90_zero_limit_ignored.

(* ORDER BY x LIMIT 1 does not return the smallest x *)
Theorem C90_order_limit_refuted : exists sort le ds q out, sorts sort le /\ query_ok q /\ Forall (readable q) ds /\ q_order q = Some le /\
  run_scan sort false ds ds q = Ok out /\ ~ answers ds q out.
Proof. exact @order_limit_refuted. Qed.
Print Assumptions C90_order_limit_refuted.

(* LIMIT 0 with a filter returns rows *)
Theorem C90_zero_limit_refuted : exists sort ds q out, query_ok q /\ Forall (readable q) ds /\ q_order q = None /\ q_limit q = Some 0%Z /\
  run_scan sort false ds ds q = Ok out /\ out <> [] /\ ~ answers ds q out.
Proof. exact @zero_limit_refuted. Qed.
Print Assumptions C90_zero_limit_refuted.
