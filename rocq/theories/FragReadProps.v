(* C91: reading a fragment. *)
From Coq Require Import List Arith NArith ZArith Bool Permutation Sorted.
From Verif Require Import Lib AMap RowIdsModel SerdeModel ReadParamsModel TreeMapModel DeletionModel StreamModel StreamProofs FragReadModel FragReadProofs.
Import ListNotations.
Local Open Scope nat_scope.

(* a range of a fragment holds the surviving rows from start to end with the stored values; missing: row ids of tables with stable row ids *)
Theorem C91_read_range_exact_partial : forall g proj k a b bs, rfrag_ok g -> Forall (fun c => (0 <= c)%Z) proj -> 0 < bs -> a < b -> b <= length (live_offsets g) ->
  (rg_seq g = None \/ k_id k = false) ->
  returns (read_range g proj k a b bs) k (map (want g proj k) (firstn (b - a) (skipn a (live_offsets g)))).
Proof. exact @read_range_exact. Qed.
Print Assumptions C91_read_range_exact_partial.

(* the whole fragment; missing: columns without a data file in fragments with deletions *)
Theorem C91_read_all_exact_partial : forall g proj k bs, rfrag_ok g -> Forall (fun c => (0 <= c)%Z) proj -> 0 < bs ->
  (Forall (has_file g) proj \/ forall o, o < rg_phys g -> is_deleted g o = false) ->
  returns (read_all g proj k bs) k (map (want g proj k) (live_offsets g)).
Proof. exact @read_all_exact. Qed.
Print Assumptions C91_read_all_exact_partial.

(* taking physical offsets; missing: row ids of tables with stable row ids *)
Theorem C91_take_exact_partial : forall g proj k idx bs, rfrag_ok g -> Forall (fun c => (0 <= c)%Z) proj -> 0 < bs -> Forall (fun i => i < rg_phys g) idx ->
  (rg_seq g = None \/ k_id k = false) ->
  returns (take g proj k idx bs) k (map (want g proj k) (filter (fun o => negb (is_deleted g o)) idx)).
Proof. exact @take_exact. Qed.
Print Assumptions C91_take_exact_partial.

(* taking a physical range; missing: the same *)
Theorem C91_take_range_exact_partial : forall g proj k a b bs, rfrag_ok g -> Forall (fun c => (0 <= c)%Z) proj -> 0 < bs -> a < b -> b <= rg_phys g ->
  (rg_seq g = None \/ k_id k = false) ->
  returns (take_range g proj k a b bs) k (map (want g proj k) (filter (fun o => negb (is_deleted g o)) (seq a (b - a)))).
Proof. exact @take_range_exact. Qed.
Print Assumptions C91_take_range_exact_partial.

(* count_rows is the number of surviving rows *)
Theorem C91_count_live : forall g, rfrag_ok g -> count_rows g = length (live_offsets g).
Proof. exact @count_live. Qed.
Print Assumptions C91_count_live.

(* what a read of only missing columns returns: the surviving rows among the first count_rows offsets *)
Theorem C91_read_all_nulls : forall g proj k bs, rfrag_ok g -> Forall (fun c => (0 <= c)%Z) proj -> 0 < bs -> proj <> [] -> (forall c, In c proj -> ~ has_file g c) ->
  returns (read_all g proj k bs) k (map (want g proj k) (filter (fun o => o <? length (live_offsets g)) (live_offsets g))).
Proof. exact @read_all_nulls. Qed.
Print Assumptions C91_read_all_nulls.

(* rows are lost *)
Theorem C91_read_all_loses_rows_refuted : exists g proj k bs out, rfrag_ok g /\ Forall (fun c => (0 <= c)%Z) proj /\ 0 < bs /\
  read_all g proj k bs = Ok out /\ length out < length (live_offsets g) /\ out <> map (want g proj k) (live_offsets g).
Proof. exact @read_all_loses_rows_refuted. Qed.
Print Assumptions C91_read_all_loses_rows_refuted.

(* the read fails *)
Theorem C91_read_all_fails_refuted : exists g proj k bs, rfrag_ok g /\ Forall (fun c => (0 <= c)%Z) proj /\ 0 < bs /\ read_all g proj k bs = Err.
Proof. exact @read_all_fails_refuted. Qed.
Print Assumptions C91_read_all_fails_refuted.

(* mixed columns *)
Theorem C91_read_all_truncated_refuted : exists g proj k bs out, rfrag_ok g /\ Forall (fun c => (0 <= c)%Z) proj /\ 0 < bs /\
  read_all g proj k bs = Ok out /\ out = [] /\ length (live_offsets g) = 2.
Proof. exact @read_all_truncated_refuted. Qed.
Print Assumptions C91_read_all_truncated_refuted.

(* row ids of a range *)
Theorem C91_read_range_ids_refuted : exists g proj k out, rfrag_ok g /\ k_id k = true /\ read_range g proj k 1 2 8 = Ok out /\
  out <> map (want g proj k) (firstn 1 (skipn 1 (live_offsets g))).
Proof. exact @read_range_ids_refuted. Qed.
Print Assumptions C91_read_range_ids_refuted.
