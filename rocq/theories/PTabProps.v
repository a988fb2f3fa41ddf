(* Property C142: the page table of a file of format 1, and how a data file opens it. *)
From Coq Require Import List Arith NArith ZArith Bool Permutation Sorted.
From Verif Require Import PTabModel PTabProofs PTabExamples.
Import ListNotations.
Local Open Scope Z_scope.

(* every page that was set is found, and no other, whatever follows the table in the file *)
Theorem C142_roundtrip : forall p lo t rest hi nb,
  write p lo = Some t ->
  (forall f b, get p f b <> None -> (b < nb)%nat) -> (exists f, get p f (nb - 1) <> None) -> (0 < nb)%nat ->
  lo <= hi -> (exists f b, hi <= f /\ get p f b <> None) ->
  exists q, load (t ++ rest) lo hi nb = Some q /\
    forall f b, get q f b = if (lo <=? f) && (f <=? hi) && (b <? nb)%nat then Some (match get p f b with Some x => x | None => (0, 0) end) else None.
Proof. exact @roundtrip. Qed.
Print Assumptions C142_roundtrip.

(* a data file finds the pages of its fields, also if some were written anew elsewhere, but not the first *)
Theorem C142_open_partial : forall p fields updated t rest nb q,
  StronglySorted Z.lt fields -> (forall f, In f fields -> 0 <= f) ->
  write p (hd 0 fields) = Some t ->
  (forall f b, get p f b <> None -> In f fields /\ (b < nb)%nat) -> (exists f, get p f (nb - 1) <> None) -> (0 < nb)%nat ->
  ~ In (hd 0 fields) updated ->
  open_file (t ++ rest) (tombstone updated fields) nb = Some q ->
  forall f b i, In f fields -> ~ In f updated -> get p f b = Some i -> get q f b = Some i.
Proof. exact @open_right. Qed.
Print Assumptions C142_open_partial.

(* if the first field was written anew, another page is found for those that remain, or the file cannot be opened *)
Theorem C142_tombstone_refuted : exists p fields updated t, StronglySorted Z.lt fields /\ write p (hd 0 fields) = Some t /\ In 1 fields /\ ~ In 1 updated /\
  get p 1 0 = Some (80, 10) /\ tombstone updated fields = [-2; 1] /\
  open_file t (tombstone updated fields) 1 = None /\
  (forall rest, open_file (t ++ rest) (tombstone updated fields) 1 = None \/
     exists a b x y r q, rest = a :: b :: x :: y :: r /\ open_file (t ++ rest) (tombstone updated fields) 1 = Some q /\ get q 1 0 = Some (x, y)).
Proof. exact @tombstone_refuted. Qed.
Print Assumptions C142_tombstone_refuted.

(* such a data file can be opened, if its last field has a page *)
Theorem C142_opens_partial : forall p fields updated t rest nb,
  StronglySorted Z.lt fields -> (forall f, In f fields -> 0 <= f) ->
  write p (hd 0 fields) = Some t ->
  (forall f b, get p f b <> None -> In f fields /\ (b < nb)%nat) -> (exists f, get p f (nb - 1) <> None) -> (0 < nb)%nat ->
  ~ In (hd 0 fields) updated -> (exists b, get p (last fields 0) b <> None) ->
  exists q, open_file (t ++ rest) (tombstone updated fields) nb = Some q.
Proof. exact @opens. Qed.
Print Assumptions C142_opens_partial.

(* a table has what was set last *)
Theorem C142_set : forall p f b i g c,
  get [] g c = None /\ get (set p f b i) f b = Some i /\ (g <> f \/ c <> b -> get (set p f b i) g c = get p g c).
Proof. exact @set_get. Qed.
Print Assumptions C142_set.
