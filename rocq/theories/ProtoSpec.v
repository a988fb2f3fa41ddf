(* What a commit handler should do: an atomic commit-if-absent register per version,
   and the claims of C29-C32 in terms of what its users observe. *)
From Coq Require Import List NArith Bool.
From Verif Require Import Lib NamingModel ProtoModel.
Import ListNotations.
Local Open Scope N_scope.

(* an attempt: not begun, begun, its manifest became the version, over *)
Inductive status (A : Type) := SNone | SActive (v : N) (x : A) | SWon (v : N) (x : A) | SDone.
Arguments SNone {A}. Arguments SActive {A}. Arguments SWon {A}. Arguments SDone {A}.
Record ast (A : Type) := { a_vers : N -> option A; a_st : N -> status A }.
Arguments a_vers {A}. Arguments a_st {A}.
Inductive abs_step {A} : ast A -> option (label A) -> ast A -> Prop :=
| as_begin : forall m st a v x, st a = SNone ->
    abs_step {| a_vers := m; a_st := st |} (Some (LBegin a v x)) {| a_vers := m; a_st := upN st a (SActive v x) |}
| as_commit : forall m st a v x, st a = SActive v x -> m v = None ->
    abs_step {| a_vers := m; a_st := st |} None {| a_vers := upN m v (Some x); a_st := upN st a (SWon v x) |}
| as_ok : forall m st a v x, st a = SWon v x ->
    abs_step {| a_vers := m; a_st := st |} (Some (LRet a ROk)) {| a_vers := m; a_st := upN st a SDone |}
| as_conflict : forall m st a v x, st a = SActive v x ->
    abs_step {| a_vers := m; a_st := st |} (Some (LRet a RConflict)) {| a_vers := m; a_st := upN st a SDone |}
| as_err : forall m st a v x, st a = SActive v x \/ st a = SWon v x ->
    abs_step {| a_vers := m; a_st := st |} (Some (LRet a RErr)) {| a_vers := m; a_st := upN st a SDone |}
| as_read : forall m st v x, m v = Some x -> abs_step {| a_vers := m; a_st := st |} (Some (LRead v x)) {| a_vers := m; a_st := st |}
| as_latest : forall m st v, m v <> None -> abs_step {| a_vers := m; a_st := st |} (Some (LLatest v)) {| a_vers := m; a_st := st |}.
Definition abs_lts (A : Type) : lts (label A) :=
  {| lst := ast A; linit := fun s => (forall v, a_vers s v = None) /\ (forall a, a_st s a = SNone); lstep := abs_step |}.

(* C29: at most one attempt at a version is told that it succeeded, and whoever reads
   the version, whenever, reads what that attempt wrote *)
Definition one_winner {A} (H : lts (label A)) : Prop :=
  forall s0 tr s, linit H s0 -> run H s0 tr s ->
  (forall a b v x y, In (LBegin a v x) tr -> In (LBegin b v y) tr -> In (LRet a ROk) tr -> In (LRet b ROk) tr -> a = b) /\
  (forall a v x y, In (LBegin a v x) tr -> In (LRet a ROk) tr -> In (LRead v y) tr -> y = x).
(* C30: a version that has been read never reads differently *)
Definition immutable {A} (H : lts (label A)) : Prop :=
  forall s0 tr s, linit H s0 -> run H s0 tr s -> forall v x y, In (LRead v x) tr -> In (LRead v y) tr -> x = y.
(* what is read was begun by somebody *)
Definition reads_begun {A} (H : lts (label A)) : Prop :=
  forall s0 tr s, linit H s0 -> run H s0 tr s -> forall v x, In (LRead v x) tr -> exists a, In (LBegin a v x) tr.

(* forward simulation *)
Definition simulates {L} (H G : lts L) (R : lst H -> lst G -> Prop) : Prop :=
  (forall s, linit H s -> exists a, linit G a /\ R s a) /\
  (forall s l s' a, R s a -> lstep H s l s' ->
     exists a', R s' a' /\ (lstep G a l a' \/ (l = None /\ a' = a))).
