(* Concrete cases for PTabProofs: two fields and a struct between them, two batches; and a data file of which the first field was
   written anew. *)
From Coq Require Import List ZArith Bool Lia Sorted.
From Verif Require Import PTabModel PTabProofs.
Import ListNotations.
Local Open Scope Z_scope.

Definition p0 : table := set (set (set (set [] 3 0 (0, 5)) 5 0 (40, 5)) 3 1 (80, 2)) 5 1 (96, 2).
Example written0 : write p0 3 = Some [0; 5; 80; 2; 0; 0; 0; 0; 40; 5; 96; 2].
Proof. reflexivity. Qed.
Example below0 : write p0 4 = None.
Proof. reflexivity. Qed.
Example loaded0 : exists q, load ([0; 5; 80; 2; 0; 0; 0; 0; 40; 5; 96; 2] ++ [7; 8]) 3 5 2 = Some q /\ get q 5 1 = Some (96, 2) /\ get q 4 0 = Some (0, 0) /\ get q 6 0 = None.
Proof. eexists. repeat split. Qed.
Example roundtrip0 : exists q, load ([0; 5; 80; 2; 0; 0; 0; 0; 40; 5; 96; 2] ++ [7; 8]) 3 5 2 = Some q /\
  forall f b, get q f b = if (3 <=? f) && (f <=? 5) && (b <? 2)%nat then Some (match get p0 f b with Some x => x | None => (0, 0) end) else None.
Proof.
  apply (roundtrip p0 3 _ [7; 8] 5 2 written0); try lia.
  - intros f b H. destruct (get p0 f b) as [i|] eqn:E; [|now contradict H]. apply get_in in E. cbn in E.
    repeat (destruct E as [E|E]; [injection E; intros; lia|]). destruct E.
  - exists 3. discriminate.
  - exists 5, 0%nat. split; [lia|discriminate].
Qed.
(* field 5 was written anew: field 3 is still found *)
Example open0 : exists q, open_file ([0; 5; 80; 2; 0; 0; 0; 0; 40; 5; 96; 2] ++ [7; 8]) (tombstone [5] [3; 4; 5]) 2 = Some q /\ get q 3 1 = Some (80, 2).
Proof. eexists. split; reflexivity. Qed.
Example open0_right : forall q, open_file ([0; 5; 80; 2; 0; 0; 0; 0; 40; 5; 96; 2] ++ [7; 8]) (tombstone [5] [3; 4; 5]) 2 = Some q -> get q 3 1 = Some (80, 2).
Proof.
  intros q O. apply (open_right p0 [3; 4; 5] [5] [0; 5; 80; 2; 0; 0; 0; 0; 40; 5; 96; 2] [7; 8] 2 q); try assumption; try reflexivity; try lia.
  - repeat constructor; lia.
  - intros f H. cbn in H. lia.
  - intros f b H. destruct (get p0 f b) as [i|] eqn:E; [|now contradict H]. apply get_in in E. cbn in E.
    repeat (destruct E as [E|E]; [injection E as <- <- <-; cbn; lia|]). destruct E.
  - exists 3. discriminate.
  - cbn. lia.
  - cbn. lia.
  - cbn. lia.
Qed.

Example opens0 : exists q, open_file ([0; 5; 80; 2; 0; 0; 0; 0; 40; 5; 96; 2] ++ [7; 8]) (tombstone [5] [3; 4; 5]) 2 = Some q.
Proof.
  apply (opens p0 [3; 4; 5] [5] [0; 5; 80; 2; 0; 0; 0; 0; 40; 5; 96; 2] [7; 8] 2); try reflexivity; try lia.
  - repeat constructor; lia.
  - intros f H. cbn in H. lia.
  - intros f b H. destruct (get p0 f b) as [i|] eqn:E; [|now contradict H]. apply get_in in E. cbn in E.
    repeat (destruct E as [E|E]; [injection E as <- <- <-; cbn; lia|]). destruct E.
  - exists 3. discriminate.
  - cbn. lia.
  - exists 1%nat. discriminate.
Qed.
(* a page that is set again *)
Example set0 : get (set p0 3 1 (112, 2)) 3 1 = Some (112, 2) /\ get (set p0 3 1 (112, 2)) 5 1 = Some (96, 2).
Proof. split; reflexivity. Qed.

(* the first field was written anew: its id is -2 now, from which on the table is read; what is found for the other field is what
   follows the table, or the file cannot be opened *)
Theorem tombstone_refuted : exists p fields updated t, StronglySorted Z.lt fields /\ write p (hd 0 fields) = Some t /\ In 1 fields /\ ~ In 1 updated /\
  get p 1 0 = Some (80, 10) /\ tombstone updated fields = [-2; 1] /\
  open_file t (tombstone updated fields) 1 = None /\
  (forall rest, open_file (t ++ rest) (tombstone updated fields) 1 = None \/
     exists a b x y r q, rest = a :: b :: x :: y :: r /\ open_file (t ++ rest) (tombstone updated fields) 1 = Some q /\ get q 1 0 = Some (x, y)).
Proof.
  exists (set (set [] 0 0 (0, 10)) 1 0 (80, 10)), [0; 1], [0], [0; 10; 80; 10].
  repeat split; try reflexivity.
  - repeat constructor; lia.
  - cbn. lia.
  - cbn. lia.
  - intros rest. destruct rest as [|a [|b [|x [|y r]]]]; try (left; reflexivity).
    right. exists a, b, x, y, r. eexists. repeat split.
Qed.
