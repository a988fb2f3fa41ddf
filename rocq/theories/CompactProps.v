(* Compaction plans (C49) and address maps (C50): the claims. *)
From Coq Require Import List Arith NArith ZArith Bool Permutation Sorted.
From Verif Require Import Lib AMap SerdeModel CompactModel CompactProofs RemapProofs.
Import ListNotations.
Local Open Scope nat_scope.

(* Tasks are disjoint non-empty runs of adjacent fragments in dataset order; each holds only candidates, does not mix index coverage, has at least two fragments or one fragment whose deletions are to be materialized, and cannot be split further; nothing eligible is left out. *)
Theorem C49_plan : forall fuel o ixs frags, 0 < o_target o -> length frags < fuel -> (forall f, In f frags -> p_del f <= p_rows f) ->
  exists tasks, plan_compaction fuel o ixs frags = Some tasks /\
    runs tasks frags /\
    (forall t, In t tasks ->
       (forall f, In f t -> small o f \/ by_itself o f) /\
       (forall f g ix l, In f t -> In g t -> In ix ixs -> pi_bitmap ix = Some l -> (In (p_id f) l <-> In (p_id g) l)) /\
       (2 <= length t \/ exists f, t = [f] /\ by_itself o f) /\
       (forall a b, t = a ++ b -> o_target o <= live_rows a -> live_rows b < o_target o)) /\
    (forall f, In f frags -> by_itself o f -> exists t, In t tasks /\ In f t) /\
    (forall l1 f g l2, frags = l1 ++ f :: g :: l2 -> (small o f \/ by_itself o f) -> (small o g \/ by_itself o g) ->
       (forall ix, In ix ixs -> exists l, pi_bitmap ix = Some l /\ (In (p_id f) l <-> In (p_id g) l)) ->
       exists t u, In t tasks /\ In u tasks /\ In f t /\ In g u).
Proof. exact @plan_spec. Qed.
Print Assumptions C49_plan.

(* With target_rows_per_fragment = 0 and a fragment to materialize, planning never finishes. *)
Theorem C49_zero_target_diverges : forall fuel o ixs frags f, o_target o = 0 -> In f frags -> by_itself o f -> plan_compaction fuel o ixs frags = None.
Proof. exact @zero_target_diverges. Qed.
Print Assumptions C49_zero_target_diverges.

(* An index without fragment bitmap: a task mixes a covered and an uncovered fragment. *)
Theorem C49_legacy_index_refuted : exists o ix frags t, 0 < o_target o /\ pi_bitmap ix = None /\
  plan_compaction 5 o [ix] frags = Some [t] /\
  exists f g, In f t /\ In g t /\ (p_id f <= pi_max ix)%N /\ (pi_max ix < p_id g)%N.
Proof. exact @legacy_index_refuted. Qed.
Print Assumptions C49_legacy_index_refuted.
