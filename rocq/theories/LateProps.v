(* C137: fetching further columns by row id. *)
From Coq Require Import String List Bool ZArith.
From Verif Require Import LateModel LateProofs LateWhole LateExamples.
Import ListNotations.
Local Open Scope Z_scope.
Local Open Scope string_scope.

(* the columns announced are the input's, completed, and then the new ones; those delivered are the same up to the nulls of structs, provided no list is partly in the input and partly fetched *)
Theorem C137_columns_partial {D} (no_nulls : D) full ids a input : dataset full -> input_of full a input ->
  (forall t, In t full -> closed (fun i => existsb (Z.eqb i) ids) t) -> (forall t, In t full -> closed a t) -> In "_rowid"%string (map t_name input) ->
  take_schema full ids input = Some (wanted full ids a input) /\
  ((forall t, In t full -> lists_whole a (fun i => existsb (Z.eqb i) ids && negb (a i)) t) ->
   exists out, take_exec no_nulls full ids input = Some out /\ map (blank no_nulls) out = map (blank no_nulls) (wanted full ids a input)).
Proof. apply take_columns; assumption. Qed.
Print Assumptions C137_columns_partial.

(* if moreover no struct is null, exactly those are delivered *)
Theorem C137_exact_partial {D} (no_nulls : D) full ids a input : dataset full -> input_of full a input ->
  (forall t, In t full -> closed (fun i => existsb (Z.eqb i) ids) t) -> (forall t, In t full -> closed a t) -> In "_rowid"%string (map t_name input) ->
  (forall t, In t full -> lists_whole a (fun i => existsb (Z.eqb i) ids && negb (a i)) t) -> (forall t, In t full -> structs_valid no_nulls t) ->
  take_exec no_nulls full ids input = Some (wanted full ids a input).
Proof. apply take_columns_exact; assumption. Qed.
Print Assumptions C137_exact_partial.

(* a struct that is completed loses its nulls *)
Theorem C137_nulls_refuted : exists full ids a input, dataset full /\ input_of full a input /\ (forall t, In t full -> closed (fun i => existsb (Z.eqb i) ids) t) /\ (forall t, In t full -> closed a t) /\
  In "_rowid" (map t_name input) /\ (forall t, In t full -> lists_whole a (fun i => existsb (Z.eqb i) ids && negb (a i)) t) /\
  In (ex_s 9 [ex_x; ex_y]) (wanted full ids a input) /\
  exists out, take_exec 0%nat full ids input = Some out /\ In (ex_s 0 [ex_x; ex_y]) out /\ ~ In (ex_s 9 [ex_x; ex_y]) out.
Proof. exact @take_nulls_refuted. Qed.
Print Assumptions C137_nulls_refuted.

(* a list of structs is not completed, though that is announced *)
Theorem C137_list_refuted : exists full ids a input, dataset full /\ input_of full a input /\ (forall t, In t full -> closed (fun i => existsb (Z.eqb i) ids) t) /\ (forall t, In t full -> closed a t) /\
  In "_rowid" (map t_name input) /\ (forall t, In t full -> structs_valid 0%nat t) /\
  take_schema full ids input = Some (wanted full ids a input) /\ take_exec 0%nat full ids input = Some input /\ wanted full ids a input <> input.
Proof. exact @take_list_refuted. Qed.
Print Assumptions C137_list_refuted.

(* a computed column named like one of the dataset's is taken for it *)
Theorem C137_name_refuted : exists input, NoDup (map t_name input) /\ In "_rowid" (map t_name input) /\ In (T "b" (-1) KLeaf 33%nat []) input /\
  take_exec 0%nat (ex_full 0) [8] input = Some input.
Proof. exact @take_name_refuted. Qed.
Print Assumptions C137_name_refuted.
