(* C139: strings and binaries of format 1. *)
From Coq Require Import List Arith NArith ZArith Bool Permutation Sorted.
From Verif Require Import VarBinModel VarBinProofs VarBinTake VarBinExamples.
Import ListNotations.
Local Open Scope nat_scope.

(* a range read returns those rows (an empty value of a nullable column is null), and fails beyond the end *)
Theorem C139_range_partial {B} nullable (pre post : list B) (arrs : list (barray B)) s e bs ps : Forall barray_ok arrs -> encode_var (length pre) arrs = (bs, ps) -> s <= e ->
  get_var nullable (pre ++ bs ++ post) ps (length (all_rows arrs)) s e =
  if e <=? length (all_rows arrs) then Some (map (seen nullable) (firstn (e - s) (skipn s (all_rows arrs)))) else None.
Proof. apply get_var_rows. Qed.
Print Assumptions C139_range_partial.

(* indices in order and without repeats: take returns the rows asked for, whatever the size of blocks *)
Theorem C139_take_partial {B} min_io nullable (pre post : list B) (arrs : list (barray B)) indices bs ps : Forall barray_ok arrs -> encode_var (length pre) arrs = (bs, ps) ->
  StronglySorted lt indices -> Forall (fun i => i < length (all_rows arrs)) indices ->
  take_var min_io nullable (pre ++ bs ++ post) ps (length (all_rows arrs)) indices = Some (map (fun i => seen nullable (nth i (all_rows arrs) [])) indices).
Proof. apply take_var_rows. Qed.
Print Assumptions C139_take_partial.

(* an empty value of a nullable column is read as null *)
Theorem C139_empty_refuted : exists arrs bs ps, Forall (@barray_ok nat) arrs /\ encode_var 0 arrs = (bs, ps) /\ all_rows arrs = [[1]; []] /\
  get_var true bs ps 2 0 2 = Some [Some [1]; None] /\ take_var 0 true bs ps 2 [1] = Some [None].
Proof. exact @empty_refuted. Qed.
Print Assumptions C139_empty_refuted.

(* taking an index twice fails when it is the first *)
Theorem C139_repeat_refuted : exists arrs bs ps, Forall (@barray_ok nat) arrs /\ encode_var 0 arrs = (bs, ps) /\ all_rows arrs = [[1; 2]; [3]] /\
  forall min_io nullable, take_var min_io nullable bs ps 2 [0; 0] = None /\ take_var min_io nullable bs ps 2 [1; 1] = None.
Proof. exact @repeat_refuted. Qed.
Print Assumptions C139_repeat_refuted.

(* with repeats take may return bytes of another row *)
Theorem C139_take_wrong_refuted : exists arrs bs ps indices v, Forall (@barray_ok nat) arrs /\ encode_var 0 arrs = (bs, ps) /\ StronglySorted le indices /\ Forall (fun i => i < length (all_rows arrs)) indices /\
  take_var (N.to_nat 65536) false bs ps (length (all_rows arrs)) indices = Some v /\
  nth_error indices 5 = Some 4 /\ nth_error (all_rows arrs) 4 = Some [4] /\ nth_error v 5 = Some (Some [2]).
Proof. exact @take_wrong_refuted. Qed.
Print Assumptions C139_take_wrong_refuted.
