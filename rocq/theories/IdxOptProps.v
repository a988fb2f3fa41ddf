(* C135: after optimizing, every fragment is in exactly one delta of an index. *)
From Coq Require Import List Arith NArith ZArith Bool Permutation Sorted.
From Verif Require Import Lib IdxOptModel IdxOptProofs IdxOptExamples.
Import ListNotations.
Local Open Scope nat_scope.

Theorem C135_optimize_cover : forall frs read num fresh names latest res, well read -> NoDup names -> optimize_indices frs read num fresh names latest = Some res ->
  forall n f, In n names -> In f frs -> length (coverers res n (f_id f)) = 1.
Proof. exact @optimize_cover. Qed.
Print Assumptions C135_optimize_cover.

Theorem C135_optimize_others : forall frs read num fresh names latest res, well read -> NoDup names -> (forall x y, In x read -> In y latest -> e_uuid x = e_uuid y -> e_name x = e_name y) -> optimize_indices frs read num fresh names latest = Some res ->
  forall n, ~ In n names -> filter (fun e => e_name e =? n) res = filter (fun e => e_name e =? n) latest.
Proof. exact @optimize_others. Qed.
Print Assumptions C135_optimize_others.

Theorem C135_optimize_honest_partial : forall frs read num fresh names latest res, well read -> NoDup names -> (forall e, In e read -> honest frs e) ->
  (forall n e, In n names -> In e read -> e_name e = n -> e_vector e = true -> e_v3 e = true -> exists f, In f frs /\ coverers read n (f_id f) = []) ->
  optimize_indices frs read num fresh names latest = Some res -> forall e, In e res -> In (e_name e) names -> honest frs e.
Proof. exact @optimize_honest_partial. Qed.
Print Assumptions C135_optimize_honest_partial.

Theorem C135_optimize_total_partial : forall frs read num fresh names latest, (forall n, In n names -> exists e, In e read /\ e_name e = n) -> (forall e, In e read -> e_bitmap e <> None) -> (forall e e', In e read -> In e' read -> e_name e = e_name e' -> e_vector e = e_vector e') ->
  (forall e, In e read -> In (e_name e) names -> e_vector e = true -> e_v3 e = true -> (forall i e', In e' read -> e_name e' = e_name e -> In i (e_rows e') -> exists f, In f frs /\ In i (f_rows f)) /\ exists f, In f frs /\ f_rows f <> [] /\ coverers read (e_name e) (f_id f) = []) ->
  optimize_indices frs read num fresh names latest <> None.
Proof. exact @optimize_total. Qed.
Print Assumptions C135_optimize_total_partial.

Theorem C135_history_well : forall h, history h -> forall l n x, In l h -> length (coverers l n x) <= 1 /\ (forall e, In e l -> e_name e = n -> e_vector e = false -> length (filter (fun e => e_name e =? n) l) = 1).
Proof. exact @history_well. Qed.
Print Assumptions C135_history_well.

Theorem C135_create_exact : forall frs read name field vector v3 replace uuid latest,
  (create_index frs read name field vector v3 replace uuid latest <> None <-> (forall e, In e read -> e_name e <> name) \/ (replace = true /\ exists e l, filter (fun e => e_name e =? name) read = e :: l /\ e_field e = field)) /\
  forall res, create_index frs read name field vector v3 replace uuid latest = Some res ->
    (exists e, filter (fun e => e_name e =? name) res = [e] /\ e_field e = field /\ honest frs e /\ forall f, In f frs -> coverers res name (f_id f) = [e]) /\
    forall n, n <> name -> filter (fun e => e_name e =? n) res = filter (fun e => e_name e =? n) latest.
Proof. exact @create_exact. Qed.
Print Assumptions C135_create_exact.

Theorem C135_drop_exact : forall read name, (drop_index read name read <> None <-> exists e, In e read /\ e_name e = name) /\
  ((forall x y, In x read -> In y read -> e_uuid x = e_uuid y -> e_name x = e_name y) -> forall res, drop_index read name read = Some res -> res = filter (fun e => negb (e_name e =? name)) read).
Proof. exact @drop_exact. Qed.
Print Assumptions C135_drop_exact.

Theorem C135_statistics_exact : forall frs all n, NoDup (map f_id frs) -> (exists e, In e all /\ e_name e = n) -> (forall e, In e all -> e_name e = n -> e_bitmap e <> None) -> (forall x, length (coverers all n x) <= 1) ->
  let inside := filter (fun f => match coverers all n (f_id f) with [] => false | _ => true end) frs in
  let outside := filter (fun f => match coverers all n (f_id f) with [] => true | _ => false end) frs in
  index_statistics frs all n = Some {| i_frags := length inside; i_other_frags := length outside; i_rows := length (flat_map f_rows inside); i_other_rows := length (flat_map f_rows outside) |}.
Proof. exact @statistics_exact. Qed.
Print Assumptions C135_statistics_exact.

Theorem C135_optimize_nothing_new_refuted : exists frs l, well l /\ (forall e, In e l -> honest frs e) /\
  (exists res, optimize_indices frs l 0 ex_fresh [7] l = Some res /\ exists e, In e res /\ ~ honest frs e) /\ (exists res, optimize_indices frs l 1 ex_fresh [7] l = Some res /\ exists e, In e res /\ ~ honest frs e).
Proof. exact @optimize_nothing_new_refuted. Qed.
Print Assumptions C135_optimize_nothing_new_refuted.

Theorem C135_optimize_deleted_refuted : exists frs l, well l /\ (forall e, In e l -> honest frs e) /\ optimize_indices frs l 1 ex_fresh [7] l = None.
Proof. exact @optimize_deleted_refuted. Qed.
Print Assumptions C135_optimize_deleted_refuted.

Theorem C135_drop_race_refuted : exists frs l, well l /\ (forall e, In e l -> honest frs e) /\
  (exists a b, drop_index l 7 l = Some a /\ optimize_indices frs l 0 ex_fresh [7] a = Some b /\ by_name 7 a = [] /\ by_name 7 b <> []) /\
  (exists a b, optimize_indices frs l 2 ex_fresh [7] l = Some a /\ drop_index l 7 a = Some b /\ by_name 7 b <> []).
Proof. exact @drop_race_refuted. Qed.
Print Assumptions C135_drop_race_refuted.

Theorem C135_create_race_refuted : exists frs a b, create_index frs [] 7 3 true true false 1 [] = Some a /\ create_index frs [] 7 4 false false false 2 a = Some b /\ map e_field (by_name 7 a) = [3] /\ map e_field b = [4].
Proof. exact @create_race_refuted. Qed.
Print Assumptions C135_create_race_refuted.

Theorem C135_optimize_old_refuted : exists frs l, well l /\ optimize_indices frs l 1 ex_fresh [7] l = None /\ exists e, In e l /\ e_name e = 7 /\ e_rows e = rows_of frs.
Proof. exact @optimize_old_refuted. Qed.
Print Assumptions C135_optimize_old_refuted.
