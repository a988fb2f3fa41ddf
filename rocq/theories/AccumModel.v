(* How the arrays of a column are gathered into pages: AccumulationQueue (rust/lance-encoding/src/encodings/logical/primitive.rs
   3235-3331), the encoder of a column of format 2.0 (3341-3462), of lists of format 2.0 (list.rs 902-977, 1171-1243) and of a
   column of format 2.1 (primitive.rs 4386-4400, 4529-4564).
   Simplifications: what an array says about itself (length, sizes in memory), its copy and its slices are given; a page is the
   list of the arrays it is made from (what becomes of it is in FlatModel, ListEncModel and others); sums of bytes and rows do
   not overflow; tasks finish in the order in which they were made. *)
From Coq Require Import List Arith NArith Bool Lia.
From Verif Require Import Lib PageModel ListEncModel.
Import ListNotations.
Local Open Scope nat_scope.

(* len, get_array_memory_size, get_buffer_memory_size, deep_copy_array and slice (offset and length) *)
Record ops (A : Type) := { o_len : A -> nat; o_mem : A -> N; o_buf : A -> N; o_copy : A -> A; o_slice : A -> nat -> nat -> A }.
Arguments o_len {A}. Arguments o_mem {A}. Arguments o_buf {A}. Arguments o_copy {A}. Arguments o_slice {A}.
Definition NO_ROW : N := 18446744073709551615%N.
Record queue (A : Type) := { q_arrays : list A; q_bytes : N; q_row : N; q_rows : N }.
Arguments q_arrays {A}. Arguments q_bytes {A}. Arguments q_row {A}. Arguments q_rows {A}.
(* new 3249-3259 *)
Definition empty_queue {A} : queue A := {| q_arrays := []; q_bytes := 0%N; q_row := NO_ROW; q_rows := 0%N |}.
Section Queue.
  Context {A : Type}.
  Variable op : ops A.
  Variable cache : N.
  Variable keep : bool.
  (* insert 3263-3304 *)
  Definition insert (q : queue A) (a : A) (row n : N) : option (list A * N * N) * queue A :=
    let r := if (q_row q =? NO_ROW)%N then row else q_row q in
    let rows := (q_rows q + n)%N in
    let bytes := (q_bytes q + o_mem op a)%N in
    if (cache <? bytes)%N then (Some (q_arrays q ++ [a], r, rows), empty_queue)
    else (None, {| q_arrays := q_arrays q ++ [if keep then a else o_copy op a]; q_bytes := bytes; q_row := r; q_rows := rows |}).
  (* flush 3306-3330 *)
  Definition flush (q : queue A) : option (list A * N * N) * queue A :=
    match q_arrays q with [] => (None, q) | _ => (Some (q_arrays q, q_row q, q_rows q), empty_queue) end.

  (* ---- columns of format 2.0 ---- *)
  Variable max_page : N.
  (* bit_util::ceil *)
  Definition ceil_n (v d : N) : N := (v / d + if (v mod d =? 0) then 0 else 1)%N.
  Definition ceil_nat (v d : nat) : nat := v / d + if v mod d =? 0 then 0 else 1.
  (* the loop of do_flush 3407-3415 *)
  Fixpoint parts_from (a : A) (part offset k : nat) : list A :=
    match k with 0 => [] | S k' => let c := Nat.min (o_len op a - offset) part in o_slice op a offset c :: parts_from a part (offset + c) k' end.
  (* do_flush 3387-3422: the arrays of every page; None: the division by zero *)
  Definition do_flush (arrays : list A) : option (list (list A)) :=
    match arrays with
    | [a] =>
        if (max_page =? 0)%N then None else
        let k := N.to_nat (N.min (ceil_n (o_buf op a) max_page) (N.of_nat (o_len op a))) in
        if k <=? 1 then Some [[a]] else Some (map (fun p => [p]) (parts_from a (ceil_nat (o_len op a) k) 0 k))
    | _ => Some [arrays]
    end.
  (* maybe_encode 3426-3439 and flush 3442-3448 *)
  Definition encode20 (r : option (list A * N * N)) : option (list (list A)) := match r with Some (l, _, _) => do_flush l | None => Some [] end.
  Definition push20 (q : queue A) (a : A) (row n : N) : option (list (list A) * queue A) := let '(r, q') := insert q a row n in omap (fun ps => (ps, q')) (encode20 r).
  Definition flush20 (q : queue A) : option (list (list A) * queue A) := let '(r, q') := flush q in omap (fun ps => (ps, q')) (encode20 r).
  (* a whole column: write_batch for every array, with the rows written so far, and flush *)
  Fixpoint column20 (q : queue A) (row : N) (l : list (A * N)) : option (list (list A)) :=
    match l with
    | [] => omap fst (flush20 q)
    | (a, n) :: t => obind (push20 q a row n) (fun '(ps, q') => omap (fun more => ps ++ more) (column20 q' (row + n)%N t))
    end.

  (* ---- columns of format 2.1 ---- *)
  Record page21 (D : Type) := { p_arrays : list A; p_repdefs : list D; p_row : N; p_rows : N }.
  Arguments p_arrays {D}. Arguments p_repdefs {D}. Arguments p_row {D}. Arguments p_rows {D}.
  Context {D : Type}.
  (* maybe_encode 4529-4551 and flush 4553-4561: the queue and accumulated_repdefs *)
  Definition take21 (r : option (list A * N * N)) (ds : list D) : list (page21 D) * list D :=
    match r with Some (l, row, n) => ([{| p_arrays := l; p_repdefs := ds; p_row := row; p_rows := n |}], []) | None => ([], ds) end.
  Fixpoint column21 (q : queue A) (ds : list D) (row : N) (l : list (A * D * N)) : list (page21 D) :=
    match l with
    | [] => fst (take21 (fst (flush q)) ds)
    | (a, d, n) :: t => let '(r, q') := insert q a row n in let '(ps, ds') := take21 r (ds ++ [d]) in ps ++ column21 q' ds' (row + n)%N t
    end.
End Queue.
Arguments p_arrays {A D}. Arguments p_repdefs {A D}. Arguments p_row {A D}. Arguments p_rows {A D}.

(* ---- lists of format 2.0 ---- *)
(* what ListOffsetsEncoder puts into its queue: offsets and validities (a missing one is empty), list.rs 887-910 *)
Inductive part := POffsets (l : list nat) | PValidity (v : list bool).
Definition extract_offsets {V} (a : larr V) : part := POffsets (la_offsets a).
Definition extract_validity {V} (a : larr V) : part := PValidity (match la_valid a with Some v => v | None => [] end).
(* step_by(2) *)
Fixpoint evens {X} (l : list X) : list X := match l with [] => [] | [x] => [x] | x :: _ :: t => x :: evens t end.
(* make_encode_task 912-944: the arrays at even places are offsets, those at odd places validities; None: the casts and the
   debug_assert of do_encode *)
Fixpoint pair_up (os vs : list part) : option (list (list nat * list bool)) :=
  match os, vs with
  | [], [] => Some []
  | POffsets o :: os', PValidity v :: vs' => omap (cons (o, v)) (pair_up os' vs')
  | _, _ => None
  end.
Definition offsets_page {V} (ps : list part) : option lpage :=
  omap (fun l => encode_page (map (fun p => {| la_offsets := fst p; la_valid := Some (snd p); la_values := @nil V |}) l)) (pair_up (evens ps) (evens (tl ps))).
Section Lists.
  Context {V : Type}.
  Variable opo : ops part.
  Variable opi : ops (list V).
  Variable cache : N.
  Variable keep : bool.
  Variable max_page : N.
  (* maybe_encode_offsets_and_validity 946-969; num_rows is the number of offsets *)
  Definition push_offsets (q : queue part) (a : larr V) : option (list part) * queue part :=
    let n := N.of_nat (length (la_offsets a)) in
    match insert opo cache keep q (extract_offsets a) 0%N n with
    | (Some (l, _, _), q') => (Some (l ++ [extract_validity a]), q')
    | (None, q') => match insert opo cache keep q' (extract_validity a) 0%N n with (Some (l, _, _), q2) => (Some l, q2) | (None, q2) => (None, q2) end
    end.
  (* ListFieldEncoder::maybe_encode 1171-1229 *)
  Definition push_list (qo : queue part) (qi : queue (list V)) (a : larr V) (row n : N) : option (list lpage * list (list (list V)) * queue part * queue (list V)) :=
    let '(ro, qo') := push_offsets qo a in
    obind (match ro with Some l => omap (fun p => [p]) (@offsets_page V l) | None => Some [] end) (fun ots =>
    obind (push20 opi cache keep max_page qi (items_of a) row n) (fun '(its, qi') =>
    match ots, its with
    | _ :: _, [] => omap (fun '(its', qi2) => (ots, its', qo', qi2)) (flush20 opi max_page qi')
    | _, _ => Some (ots, its, qo', qi')
    end)).
  (* a whole column, ending with flush 1231-1240 *)
  Fixpoint column_lists20 (qo : queue part) (qi : queue (list V)) (row : N) (l : list (larr V * N)) : option (list lpage * list (list (list V))) :=
    match l with
    | [] =>
        obind (match q_arrays qo with [] => Some [] | _ => omap (fun p => [p]) (@offsets_page V (q_arrays qo)) end) (fun ots =>
        omap (fun p => (ots, fst p)) (flush20 opi max_page qi))
    | (a, n) :: t => obind (push_list qo qi a row n) (fun '(ots, its, qo', qi') => omap (fun p => (ots ++ fst p, its ++ snd p)) (column_lists20 qo' qi' (row + n)%N t))
    end.
End Lists.
