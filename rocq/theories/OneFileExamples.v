(* Concrete cases for OneFileProofs and OneFileTake: a file of three batches, the middle one empty, and readers that meet the hypotheses. *)
From Coq Require Import List Arith Bool Lia Permutation Sorted.
From Verif Require Import OneFileModel OneFileProofs OneFileTake.
Import ListNotations.
Local Open Scope nat_scope.

(* a search that meets what the standard library says: the first element that is not less *)
Fixpoint first_ge (o : list nat) (x k : nat) : nat + nat :=
  match o with [] => inr k | y :: r => if y <? x then first_ge r x (S k) else if y =? x then inl k else inr k end.
Lemma first_ge_right : forall o x k, StronglySorted le o ->
  match first_ge o x k with
  | inl i => k <= i /\ nth_error o (i - k) = Some x
  | inr i => k <= i <= k + length o /\ (forall j y, nth_error o j = Some y -> (k + j < i -> y < x) /\ (i <= k + j -> x < y))
  end.
Proof.
  induction o as [|z o IH]; intros x k S; cbn [first_ge].
  - cbn. split; [lia|]. intros [|j] y; discriminate.
  - inversion S as [|? ? S1 S2]; subst. destruct (Nat.ltb_spec z x) as [L|L].
    + specialize (IH x (Datatypes.S k) S1). destruct (first_ge o x (Datatypes.S k)) as [i|i].
      * destruct IH as [I1 I2]. split; [lia|]. replace (i - k) with (Datatypes.S (i - Datatypes.S k)) by lia. exact I2.
      * destruct IH as [I1 I2]. cbn [length]. split; [lia|]. intros [|j] y Hj.
        -- cbn in Hj. injection Hj as <-. split; [auto|lia].
        -- cbn in Hj. destruct (I2 j y Hj) as [P Q]. split; intros; [apply P|apply Q]; lia.
    + destruct (Nat.eqb_spec z x) as [->|N].
      * split; [lia|]. rewrite Nat.sub_diag. reflexivity.
      * cbn [length]. split; [lia|]. intros [|j] y Hj; cbn in Hj; (split; [lia|]).
        -- injection Hj as <-. lia.
        -- apply nth_error_In in Hj. rewrite Forall_forall in S2. specialize (S2 y Hj). lia.
Qed.
Example search_ok : searches (fun o x => first_ge o x 0).
Proof.
  intros o x S. assert (H := first_ge_right o x 0 S). destruct (first_ge o x 0) as [i|i].
  - destruct H as [_ H]. now rewrite Nat.sub_0_r in H.
  - destruct H as [H1 H2]. split; [lia|]. exact H2.
Qed.

Definition ws0 : list (list (list nat)) := [[[10; 11]; [12]]; []; [[]]; [[13; 14; 15; 16]]].
Definition rd0 (b x y : nat) : option (list nat) := option_map (fun l => firstn (y - x) (skipn x l)) (nth_error [[10; 11; 12]; []; [13; 14; 15; 16]] b).
Definition tk0 (b : nat) (o : list nat) : option (list nat) := option_map (fun l => flat_map (fun i => match nth_error l i with Some x => [x] | None => [] end) o) (nth_error [[10; 11; 12]; []; [13; 14; 15; 16]] b).

Example written0 : write_file ws0 = ([0; 3; 3; 7], [[10; 11; 12]; []; [13; 14; 15; 16]]).
Proof. reflexivity. Qed.
Example range0 : read_range (fun o x => first_ge o x 0) rd0 (fst (write_file ws0)) 2 6 = Some [12; 13; 14; 15].
Proof. reflexivity. Qed.
Example range0_hyp : forall b l x y, nth_error (snd (write_file ws0)) b = Some l -> x <= y <= length l -> x < y \/ l = [] -> rd0 b x y = Some (firstn (y - x) (skipn x l)).
Proof. intros b l x y H _ _. unfold rd0. change (snd (write_file ws0)) with [[10; 11; 12]; []; [13; 14; 15; 16]] in H. rewrite H. reflexivity. Qed.
Example range0_right : read_range (fun o x => first_ge o x 0) rd0 (fst (write_file ws0)) 2 6 = Some (firstn 4 (skipn 2 [10; 11; 12; 13; 14; 15; 16])).
Proof. apply (range_right nat _ rd0 ws0 2 6 search_ok range0_hyp); cbn; lia. Qed.
Example range0_beyond : read_range (fun o x => first_ge o x 0) rd0 (fst (write_file ws0)) 2 8 = None.
Proof. apply (range_right nat _ rd0 ws0 2 8 search_ok range0_hyp); cbn; lia. Qed.

(* asked for in any order, the rows come out in the order of the file *)
Example take0 : take tk0 (fst (write_file ws0)) [6; 1; 3; 2; 3] = Some [11; 12; 13; 13; 16].
Proof. reflexivity. Qed.
Example take0_hyp : forall b l offsets, nth_error (snd (write_file ws0)) b = Some l -> offsets <> [] -> StronglySorted le offsets -> (NoDup [6; 1; 3; 2; 3] -> NoDup offsets) ->
  Forall (fun i => i < length l) offsets -> exists out, tk0 b offsets = Some out /\ map Some out = map (nth_error l) offsets.
Proof.
  intros b l o H _ _ _ F. change (snd (write_file ws0)) with [[10; 11; 12]; []; [13; 14; 15; 16]] in H. unfold tk0. rewrite H. cbn [option_map].
  eexists. split; [reflexivity|]. clear H. induction F as [|i o L F IH]; [reflexivity|]. cbn [flat_map map].
  destruct (nth_error l i) as [x|] eqn:E; [|apply nth_error_None in E; lia]. cbn [app map]. now rewrite IH.
Qed.
Example take0_right : exists out sorted, take tk0 (fst (write_file ws0)) [6; 1; 3; 2; 3] = Some out /\ Permutation sorted [6; 1; 3; 2; 3] /\
  StronglySorted le sorted /\ map Some out = map (nth_error [10; 11; 12; 13; 14; 15; 16]) sorted.
Proof. apply (take_right nat tk0 ws0 [6; 1; 3; 2; 3] take0_hyp). repeat constructor. Qed.
Example take0_beyond : take tk0 (fst (write_file ws0)) [6; 1; 7] = None.
Proof. reflexivity. Qed.
Example lengths0 : map (get_batch_length (fst (write_file ws0))) [0; 1; 2; 3] = [Some 3; Some 0; Some 4; None].
Proof. reflexivity. Qed.
