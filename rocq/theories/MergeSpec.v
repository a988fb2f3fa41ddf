(* What UPDATE and MERGE INSERT should do to a table, independent of the model's helpers. *)
From Coq Require Import List Arith NArith ZArith Bool Lia Permutation.
From Verif Require Import Lib AMap SerdeModel DeletionModel DeletionSpec DeletionProofs MergeModel.
Import ListNotations.
Local Open Scope N_scope.

(* a table as the other invariants leave it: fragments in id order (C38), row counts
   and ids below 2^32, deletions inside the fragment (C24) *)
Record frag_ok (f : tfrag) : Prop := {
  fo_id : tf_id f < two32;
  fo_rows : N.of_nat (length (tf_rows f)) <= two32;
  fo_wf : dv_wf (tf_del f);
  fo_in : forall x, dv_has (tf_del f) x -> x < N.of_nat (length (tf_rows f)) }.
Definition table_ok (t : table) : Prop := sinc (map tf_id t) /\ forall f, In f t -> frag_ok f.
(* row ids are addresses: the table was created without stable row ids *)
Definition addressed (t : table) : Prop := forall f, In f t -> tf_ids f = None.
(* with stable row ids: one id per row, no id twice *)
Definition stable_ok (t : table) : Prop :=
  (forall f, In f t -> exists l, tf_ids f = Some l /\ length l = length (tf_rows f)) /\
  NoDup (flat_map (fun f => match tf_ids f with Some l => l | None => [] end) t).

(* ---- UPDATE t SET c1 = e1, ... WHERE cond ---- *)
Definition set_row (ups : list (nat * (row -> cell))) (r : row) : row :=
  map (fun c => match find (fun u => Nat.eqb (fst u) c) ups with
                | Some u => snd u r
                | None => nth c r None
                end) (seq 0 (length r)).
Definition updated (cond : row -> option bool) (ups : list (nat * (row -> cell))) (rows : list row) : list row :=
  map (fun r => match cond r with Some true => set_row ups r | _ => r end) rows.

(* ---- MERGE ---- *)
(* SQL equality on every key column: null equals nothing *)
Definition same_key (on : list nat) (a b : row) : bool :=
  forallb (fun c => match nth c a None, nth c b None with Some x, Some y => (x =? y)%Z | _, _ => false end) on.
Definition wants_update (p : params) (s t : row) : bool :=
  match p_matched p with
  | DoNothing => false
  | UpdateAll => true
  | UpdateIf e => match e s t with Some true => true | _ => false end
  end.
Definition wants_delete (p : params) (t : row) : bool :=
  match p_source p with
  | Keep => false
  | DeleteAll => true
  | DeleteIf e => match e t with Some true => true | _ => false end
  end.
(* what becomes of one target row.  A row matched by several source rows is replaced by
   one copy for each of them that is to update it ("multiple copies of the row", as the
   documentation of when_matched says). *)
Definition fate (p : params) (src : list row) (t : row) : list row :=
  match filter (fun s => same_key (p_on p) s t) src with
  | [] => if wants_delete p t then [] else [t]
  | matches => match filter (fun s => wants_update p s t) matches with
               | [] => [t]
               | ups => ups
               end
  end.
Definition unmatched (p : params) (src tgt : list row) : list row :=
  filter (fun s => negb (existsb (fun t => same_key (p_on p) s t) tgt)) src.
Definition merged (p : params) (src tgt : list row) : list row :=
  flat_map (fate p src) tgt ++ (if p_insert p then unmatched p src tgt else []).

(* the reported numbers *)
Definition count {A} (f : A -> bool) (l : list A) : nat := length (filter f l).
Definition spec_inserted (p : params) (src tgt : list row) : nat := if p_insert p then length (unmatched p src tgt) else 0.
Definition spec_updated (p : params) (src tgt : list row) : nat :=
  length (flat_map (fun t => filter (fun s => same_key (p_on p) s t && wants_update p s t) src) tgt).
Definition spec_deleted (p : params) (src tgt : list row) : nat :=
  count (fun t => negb (existsb (fun s => same_key (p_on p) s t) src) && wants_delete p t) tgt.

(* rows are recognised as present by their first [length on] columns (see C86) *)
Definition visible (p : params) (rows : list row) : Prop :=
  forall r, In r rows -> exists c, (c < length (p_on p))%nat /\ nth c r None <> None.
