(* Strings of format 2.0 with few distinct values: rust/lance-encoding/src/encodings/physical/dictionary.rs
   DictionaryEncoder 293-410, DictionaryPageScheduler 61-113, DictionaryPageDecoder 158-205; the choice in
   encoder.rs 563-590, 675-706.
   Simplifications: those of FlatModel and BinEncModel; the array made of the block has the rows of the arrays given
   (C104); the hash map is a list of pairs; arrow's cast of a dictionary array to strings gives the rows it stands
   for; the estimate of the number of distinct values is a parameter. *)
From Coq Require Import List Arith NArith Bool Lia.
From Verif Require Import Lib PageModel ListEncModel ListEncProofs SerdeModel FlatModel.
From Verif Require BinEncModel BinEncProofs.
Import ListNotations.
Local Open Scope nat_scope.

Definition str := list nat.
Definition str_eqb (a b : str) : bool := if list_eq_dec Nat.eq_dec a b then true else false.
(* check_dict_encoding 684-706 (rows that are null are not counted); the estimate after each value *)
Fixpoint few (estimate : list str -> nat) (threshold : nat) (seen : list str) (l : list (option str)) : bool :=
  match l with
  | [] => true
  | None :: t => few estimate threshold seen t
  | Some s :: t => if threshold <=? estimate (seen ++ [s]) then false else few estimate threshold (seen ++ [s]) t
  end.
Definition check_dict (estimate : list str -> nat) (threshold : nat) (rows : list (option str)) : bool :=
  if length rows <? threshold then false else few estimate threshold [] rows.

(* ---- encode_dict_indices_and_items 310-352 ---- *)
(* with overflow checks (debug builds) the increment of the last index is a panic, without it wraps *)
Definition next_index (checked : bool) (i : N) : option N := if (i =? 255)%N then (if checked then None else Some 0%N) else Some (i + 1)%N.
Definition lookup (s : str) (m : list (str * N)) : option N := omap snd (find (fun p : str * N => str_eqb (fst p) s) m).
Fixpoint dict_loop (checked : bool) (rows : list (option str)) (m : list (str * N)) (cur : N) : option (list N * list str) :=
  match rows with
  | [] => Some ([], [])
  | None :: t => omap (fun r => (0%N :: fst r, snd r)) (dict_loop checked t m cur)
  | Some s :: t =>
      let '(entry, m') := match lookup s m with Some e => (e, m) | None => (cur, (s, cur) :: m) end in
      if (entry =? cur)%N then
        obind (next_index checked cur) (fun cur' => omap (fun r => (entry :: fst r, s :: snd r)) (dict_loop checked t m' cur'))
      else omap (fun r => (entry :: fst r, snd r)) (dict_loop checked t m' cur)
  end.
(* the items as an array of strings; an empty dictionary gets a null *)
Definition items_array (items : list str) : larr nat :=
  match items with
  | [] => {| la_offsets := [0; 0]; la_valid := Some [false]; la_values := [] |}
  | _ => {| la_offsets := 0 :: runs 0 (map (@length nat) items); la_valid := None; la_values := concat items |}
  end.
Record spage := { sp_bufs : list (list N); sp_idx : enc; sp_items : BinEncModel.bpage; sp_n : nat }.
(* DictionaryEncoder::encode 354-410 *)
Definition sdict_encode (checked : bool) (rows : list (option str)) : option spage :=
  obind (dict_loop checked rows [] 1%N) (fun r =>
  match encode (choose (TFixed 1)) (from_arrays (TFixed 1) [AFixed (map (fun i => [i]) (fst r)) None] (length (fst r))) 0 with
  | Some (y, e, _) =>
      Some {| sp_bufs := buffers y; sp_idx := e; sp_items := BinEncModel.bin_encode (BinEncModel.to_block [items_array (snd r)]); sp_n := BinEncModel.rows_in_array (items_array (snd r)) |}
  | None => None
  end).

(* ---- reading ---- *)
(* the dictionary, 82-110 *)
Definition sdict_items (p : spage) : option (list (option str)) :=
  omap (fun d => lists_of (BinEncModel.bin_decode d 0 (sp_n p))) (BinEncModel.bin_load (sp_items p) [(0, sp_n p)]).
(* DictionaryPageDecoder::decode 163-205; None: a panic, also of try_new for a key outside the dictionary *)
Definition sdict_row (items : list (option str)) (i : N) : option (option str) :=
  if (i =? 0)%N then Some None else nth_error items (N.to_nat (i - 1)).
Fixpoint all_rows {A} (l : list (option A)) : option (list A) :=
  match l with [] => Some [] | Some x :: t => omap (cons x) (all_rows t) | None :: _ => None end.
Definition sdict_read (p : spage) (rs : list range) (skip n : nat) : option (list (option str)) :=
  obind (sdict_items p) (fun items => obind (sched_of (sp_bufs p) (sp_idx p)) (fun s => obind (decode (schedule_ranges s rs) skip n) (fun b =>
  match into_arrow (TFixed 1) b with Some (AFixed vals _) => all_rows (map (fun v => sdict_row items (hd 0%N v)) vals) | _ => None end))).
(* a page of strings, written with a dictionary *)
Definition read_sdict (checked : bool) (arrs : list (larr nat)) (rs : list range) (skip n : nat) : option (list (option str)) :=
  obind (sdict_encode checked (BinEncProofs.strings_of arrs)) (fun p => sdict_read p rs skip n).
