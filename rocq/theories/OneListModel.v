(* Lists of format 1: write_list_array of rust/lance-file/src/writer.rs, and read_list_array and take_list_array of
   rust/lance-file/src/reader.rs. A codec is a type of columns: arrays in memory with their rows and slices, what is stored for arrays
   written one after the other, and how it is read. Lists are a codec over that of their items, so that lists of lists are covered.
   Simplifications: positions are unbounded (they are i32 or i64), nulls are left out (format 1 does not store those of lists), what is
   stored of positions is a list of numbers (C138), other types than lists are any codec. None: an error or a panic. *)
From Coq Require Import List Arith Bool.
Import ListNotations.
Local Open Scope nat_scope.

(* ReadBatchParams *)
Inductive params := Range (s e : nat) | RangeFull | RangeTo (e : nat) | RangeFrom (s : nat) | Indices (l : list nat).
Record codec := { arr : Type; val : Type; col : Type;
  rows : arr -> list val; slc : arr -> nat -> nat -> arr; wr : list arr -> col; rd : col -> params -> option (list val) }.

(* the pairs of neighbours of offsets *)
Fixpoint windows (o : list nat) : list (nat * nat) := match o with a :: ((b :: _) as t) => (a, b) :: windows t | _ => [] end.
(* the rows of a list array with these offsets and items *)
Definition list_rows {V} (o : list nat) (items : list V) : list (list V) := map (fun w => firstn (snd w - fst w) (skipn (fst w) items)) (windows o).
(* write_list_array 488-534, write_large_list_array 536-583: the positions, and the slices of the items; k is last_offset; value_offsets
   is never empty *)
Fixpoint positions_from {X} (k : nat) (arrs : list (list nat * X)) : list nat :=
  match arrs with
  | [] => []
  | (o, _) :: r => let p := map (fun b => b - hd 0 o + k) (tl o) in p ++ positions_from (last p k) r
  end.
Definition write_positions {X} (arrs : list (list nat * X)) : list nat := 0 :: positions_from 0 arrs.
Definition write_items {X} (slice : X -> nat -> nat -> X) (arrs : list (list nat * X)) : list X :=
  map (fun a => slice (snd a) (hd 0 (fst a)) (last (fst a) 0 - hd 0 (fst a))) arrs.

(* PlainDecoder::get of the positions (C138): a range *)
Definition get_positions (ps : list nat) (s e : nat) : option (list nat) :=
  if e <=? s then Some [] else if length ps <? e then None else Some (firstn (e - s) (skipn s ps)).
(* try_new_generic_list_array of lance-arrow/src/lib.rs 167-193; building checks the offsets *)
Definition new_list {V} (o : list nat) (items : list V) : option (list (list V)) := if last o 0 <=? length items then Some (list_rows o items) else None.
(* take_list_array 638-688; i - first_idx fails below zero, and value beyond the positions *)
Fixpoint all_some {A} (l : list (option A)) : option (list A) := match l with [] => Some [] | x :: l' => match x, all_some l' with Some a, Some b => Some (a :: b) | _, _ => None end end.
Definition take_list {V} (child : params -> option (list V)) (ps : list nat) (indices : list nat) : option (list (list V)) :=
  match indices with
  | [] => None
  | first :: _ =>
      match all_some (map (fun i => if i <? first then None else
              match nth_error ps (i - first), nth_error ps (i - first + 1) with Some a, Some b => Some (a, b) | _, _ => None end) indices) with
      | None => None
      | Some ranges =>
          match all_some (map (fun r => child (Range (fst r) (snd r))) ranges) with
          | None => None
          | Some values => new_list (snd (fold_left (fun st r => (fst st + (snd r - fst r), snd st ++ [fst st + (snd r - fst r)])) ranges (0, [0]))) (concat values)
          end
      end
  end.
(* read_list_array 690-762 *)
Definition read_list {V} (ps : list nat) (child : params -> option (list V)) (p : params) : option (list (list V)) :=
  let pos := match p with
             | Range s e => get_positions ps s (e + 1)
             | RangeTo e => get_positions ps 0 (e + 1)
             | Indices l => match l with [] => None | i :: _ => get_positions ps i (last l 0 + 2) end
             | RangeFull => get_positions ps 0 (length ps)
             | RangeFrom s => get_positions ps s (length ps)
             end in
  match pos with
  | None | Some [] => None
  | Some ((p0 :: _) as pos) =>
      match p with
      | Indices l => take_list child pos l
      | _ =>
          match (match p with
                 | Range s e => option_map (Range p0) (nth_error pos (e - s))
                 | RangeTo e => option_map RangeTo (nth_error pos e)
                 | RangeFrom _ => Some (RangeFrom p0)
                 | _ => Some (Range p0 (last pos 0))
                 end) with
          | None => None
          | Some vp => match child vp with None => None | Some items => new_list (map (fun x => x - p0) pos) items end
          end
      end
  end.

Definition lists (c : codec) : codec := {|
  arr := list nat * arr c; val := list (val c); col := list nat * col c;
  rows := fun a => list_rows (fst a) (rows c (snd a));
  slc := fun a s n => (firstn (n + 1) (skipn s (fst a)), snd a);
  wr := fun arrs => (write_positions arrs, wr c (write_items (slc c) arrs));
  rd := fun st p => read_list (fst st) (rd c (snd st)) p |}.
(* lists of lists of ..., n times *)
Fixpoint nested (n : nat) (c : codec) : codec := match n with 0 => c | S k => lists (nested k c) end.
