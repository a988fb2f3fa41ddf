(* Row ranges and rows of a file of format 1: the batches of rust/lance-file/src/format/metadata.rs, and read_range and take of
   rust/lance-file/src/reader.rs.
   Simplifications: offsets are unbounded (they are i32, so that files of 2^31 rows or more are left out), a row is an element of a
   type, whatever its columns; what reads one batch is a parameter (C138 and C139 are about it); concurrent reads come back in order
   (buffered). None: an error or a panic. *)
From Coq Require Import List Arith Bool.
Import ListNotations.
Local Open Scope nat_scope.

Section OneFile.
  Context {A : Type}.
  (* Metadata::push_batch_length 105-111 *)
  Definition push_batch_length (o : list nat) (n : nat) : list nat := match o with [] => [0; n] | _ => o ++ [last o 0 + n] end.
  (* FileWriter::write 169-235 of writer.rs: all the batches of one call become one batch on disk; the offsets and the batches *)
  Definition write1 (f : list nat * list (list A)) (w : list (list A)) : list nat * list (list A) :=
    match w with [] => f | _ => (push_batch_length (fst f) (fold_left (fun n b => n + length b) w 0), snd f ++ [concat w]) end.
  Definition write_file (ws : list (list (list A))) : list nat * list (list A) := fold_left write1 ws ([], []).
  (* num_batches 87-93, len 96-98, get_offset 114-116, get_batch_length 119-122 *)
  Definition num_batches (o : list nat) : nat := match o with [] => 0 | _ => length o - 1 end.
  Definition file_len (o : list nat) : nat := last o 0.
  Definition get_batch_length (o : list nat) (b : nat) : option nat :=
    option_map (fun x => x - match nth_error o b with Some y => y | None => 0 end) (nth_error o (b + 1)).

  (* slice::binary_search of the standard library: inl i: found at i (any of those that are equal), inr i: where it would be inserted *)
  Variable search : list nat -> nat -> nat + nat.
  (* range_to_batches 169-200; the loop, on the offsets from batch b on *)
  Fixpoint walk (o : list nat) (b s e : nat) : list (nat * (nat * nat)) :=
    match o with
    | a :: ((c :: _) as t) => if e <=? a then [] else (b, (Nat.max s a - a, Nat.min e c - a)) :: walk t (S b) s e
    | _ => []
    end.
  Definition range_to_batches (o : list nat) (s e : nat) : option (list (nat * (nat * nat))) :=
    match o with
    | [] => None
    | _ => if last o 0 <? e then None
           else match search o s with
                | inl b => Some (walk (skipn b o) b s e)
                | inr 0 => None
                | inr (S b) => Some (walk (skipn b o) b s e)
                end
    end.
  (* try_collect of the batches that are read, and concat_batches *)
  Fixpoint collect {B} (f : B -> option (list A)) (l : list B) : option (list A) :=
    match l with [] => Some [] | x :: l' => match f x, collect f l' with Some a, Some b => Some (a ++ b) | _, _ => None end end.
  (* FileReader::read_range 280-303; batches[0] panics if there are none *)
  Definition read_range (rd : nat -> nat -> nat -> option (list A)) (o : list nat) (s e : nat) : option (list A) :=
    if e <=? s then Some []
    else match range_to_batches o s e with
         | None | Some [] => None
         | Some l => collect (fun x => rd (fst x) (fst (snd x)) (snd (snd x))) l
         end.

  (* sort_unstable on numbers *)
  Fixpoint insert (x : nat) (l : list nat) : list nat := match l with [] => [x] | y :: l' => if x <=? y then x :: l else y :: insert x l' end.
  Definition sort (l : list nat) : list nat := fold_right insert [] l.
  (* group_indices_to_batches 128-163; the while loop, on the offsets after that of batch b *)
  Fixpoint advance (rest : list nat) (b i : nat) : nat := match rest with [] => b | c :: r => if c <=? i then advance r (S b) i else b end.
  (* entry(b).and_modify(push).or_insert of a BTreeMap *)
  Fixpoint entry (b i : nat) (m : list (nat * list nat)) : list (nat * list nat) :=
    match m with
    | [] => [(b, [i])]
    | (k, v) :: m' => if b =? k then (k, v ++ [i]) :: m' else if b <? k then (b, [i]) :: m else (k, v) :: entry b i m'
    end.
  Definition group_step (o : list nat) (st : nat * list (nat * list nat)) (i : nat) : nat * list (nat * list nat) :=
    let b := advance (skipn (S (fst st)) o) (fst st) i in (b, entry b i (snd st)).
  Definition group (o : list nat) (indices : list nat) : list (nat * list nat) := snd (fold_left (group_step o) (sort indices) (0, [])).
  (* FileReader::take 308-336, with the adjustment to in-batch offsets; batch_offsets[batch_id] panics if there are no offsets *)
  Definition take_batch (tk : nat -> list nat -> option (list A)) (o : list nat) (x : nat * list nat) : option (list A) :=
    match nth_error o (fst x) with
    | None => None
    | Some off =>
        let offsets := map (fun i => i - off) (snd x) in
        if num_batches o <=? fst x then None
        else if file_len o <? last offsets 0 then None
        else tk (fst x) offsets
    end.
  Definition take (tk : nat -> list nat -> option (list A)) (o : list nat) (indices : list nat) : option (list A) :=
    collect (take_batch tk o) (group o indices).
End OneFile.
