(* Property C140: row ranges and rows by index over the batches of a file of format 1. *)
From Coq Require Import List Arith NArith ZArith Bool Permutation Sorted.
From Verif Require Import OneFileModel OneFileProofs OneFileTake.
Import ListNotations.
Local Open Scope nat_scope.

(* a range of rows is the rows of that range, wherever the batches end; a range that reaches beyond the file is an error *)
Theorem C140_range : forall A search (rd : nat -> nat -> nat -> option (list A)) (ws : list (list (list A))) s e,
  searches search ->
  (forall b l x y, nth_error (snd (write_file ws)) b = Some l -> x <= y <= length l -> x < y \/ l = [] ->
     rd b x y = Some (firstn (y - x) (skipn x l))) ->
  s < e ->
  let rows := concat (map (@concat A) ws) in
  (e <= length rows -> read_range search rd (fst (write_file ws)) s e = Some (firstn (e - s) (skipn s rows))) /\
  (length rows < e -> read_range search rd (fst (write_file ws)) s e = None).
Proof. exact @range_right. Qed.
Print Assumptions C140_range.

(* rows by index come out in the order of the file, each as often as it was asked for; an index beyond the file is an error *)
Theorem C140_take : forall A (tk : nat -> list nat -> option (list A)) (ws : list (list (list A))) indices,
  (forall b l offsets, nth_error (snd (write_file ws)) b = Some l -> offsets <> [] -> StronglySorted le offsets -> (NoDup indices -> NoDup offsets) ->
     Forall (fun i => i < length l) offsets -> exists out, tk b offsets = Some out /\ map Some out = map (nth_error l) offsets) ->
  let rows := concat (map (@concat A) ws) in
  (Forall (fun i => i < length rows) indices ->
     exists out sorted, take tk (fst (write_file ws)) indices = Some out /\
       Permutation sorted indices /\ StronglySorted le sorted /\ map Some out = map (nth_error rows) sorted) /\
  (forall i, In i indices -> length rows <= i -> take tk (fst (write_file ws)) indices = None).
Proof. exact @take_right. Qed.
Print Assumptions C140_take.

(* the numbers of batches and rows are those written *)
Theorem C140_lengths : forall A (ws : list (list (list A))),
  num_batches (fst (write_file ws)) = length (snd (write_file ws)) /\
  file_len (fst (write_file ws)) = length (concat (map (@concat A) ws)) /\
  concat (snd (write_file ws)) = concat (map (@concat A) ws) /\
  (forall b, get_batch_length (fst (write_file ws)) b = option_map (@length A) (nth_error (snd (write_file ws)) b)).
Proof. exact @lengths_right. Qed.
Print Assumptions C140_lengths.
