(* C136: the two halves of a shared stream get every item in order, and neither sleeps forever. *)
From Coq Require Import List Arith NArith ZArith Bool Permutation Sorted.
From Verif Require Import ShareModel ShareProofs ShareLive ShareWhole ShareExamples.
Import ListNotations.
Local Open Scope nat_scope.

(* each half gets the items in order without gaps, a half that sees the end has got all, the halves differ by at most the capacity, nothing panics; for any capacity, any interleaving and dropped halves *)
Theorem C136_safe {T} drop par (items : list T) cap ls x : run drop par items cap ls x ->
  (forall s, exists more, items = out x s ++ more) /\
  (forall s, ph x s = Fin -> out x s = items) /\
  (forall s n, cap = Some n -> length (out x s) <= length (out x (other s)) + n) /\
  (forall l, step x l <> Some None).
Proof. apply share_safe; assumption. Qed.
Print Assumptions C136_safe.

(* a half that sleeps is not behind the other; capacity of two or more, or polls that do not overlap *)
Theorem C136_no_lost_wakeup_partial {T} par (items : list T) cap ls x s : match cap with None => True | Some n => 2 <= n \/ (n = 1 /\ par = false) end ->
  run false par items cap ls x -> ph x s = Wait -> length (out x (other s)) <= length (out x s) /\ ph x (other s) <> Fin.
Proof. apply share_no_lost_wakeup; assumption. Qed.
Print Assumptions C136_no_lost_wakeup_partial.

(* until both halves have seen the end something goes on; same condition *)
Theorem C136_not_stuck_partial {T} par (items : list T) cap ls x : match cap with None => True | Some n => 2 <= n \/ (n = 1 /\ par = false) end ->
  run false par items cap ls x ->
  (forall s, ph x s = Fin) \/
  exists l y, (match l with LSpurious _ | LDrop _ => False | _ => True end) /\ allowed false par x l /\ step x l = Some (Some y).
Proof. apply share_not_stuck; assumption. Qed.
Print Assumptions C136_not_stuck_partial.

(* a run is finite *)
Theorem C136_finite {T} drop par (items : list T) cap ls x : run drop par items cap ls x ->
  length ls <= 16 * length items + 14 + 8 * length (filter (fun l => match l with LFinish _ true => true | _ => false end) ls) + 3 * length (filter (fun l => match l with LSpurious _ => true | _ => false end) ls).
Proof. apply share_finite; assumption. Qed.
Print Assumptions C136_finite.

(* false with a capacity of one and two threads *)
Theorem C136_one_threads_refuted : exists (x : @st nat) ls, run false true [1; 2] (Some 1) ls x /\ stuck x /\ ph x Left = Wait /\ ph x Right = Wait /\ out x Left = [1] /\ out x Right = [] /\ buf x = [1].
Proof. exact @share_one_threads_refuted. Qed.
Print Assumptions C136_one_threads_refuted.

(* false with a capacity of zero *)
Theorem C136_zero_refuted : exists (x : @st nat) ls, run false false [] (Some 0) ls x /\ stuck x /\ forall s, ph x s = Wait.
Proof. exact @share_zero_refuted. Qed.
Print Assumptions C136_zero_refuted.

(* false when a half that polled the stream is dropped *)
Theorem C136_drop_refuted : exists (x : @st nat) ls, run true false [1] None ls x /\ stuck x /\ ph x Left = Gone /\ ph x Right = Wait /\ out x Right = [].
Proof. exact @share_drop_refuted. Qed.
Print Assumptions C136_drop_refuted.

(* false when a half is dropped and the buffer is full *)
Theorem C136_drop_full_refuted : exists (x : @st nat) ls, run true false [1; 2; 3] (Some 1) ls x /\ stuck x /\ ph x Left = Gone /\ ph x Right = Wait /\ out x Right = [1].
Proof. exact @share_drop_full_refuted. Qed.
Print Assumptions C136_drop_full_refuted.
