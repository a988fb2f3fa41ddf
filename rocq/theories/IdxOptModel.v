(* The list of indices of a dataset: rust/lance/src/index.rs, index/append.rs, the CreateIndex operation of dataset/transaction.rs.
   Simplifications: an index file is the list of the row ids in it, kept here in the entry that names the file; names, uuids,
   fields and fragment ids are numbers; a fragment is its id and the ids of its live rows, whose
   values are not null; bitmaps are lists
   used as sets; the deltas of a name are handled in an order that is given; errors and panics are None. *)
From Coq Require Import List Arith Bool.
From Verif Require Import Lib.
Import ListNotations.
Local Open Scope nat_scope.

Record frag := { f_id : nat; f_rows : list nat }.
(* IndexMetadata, and of the file: whether it is a vector index, and one of the newer format *)
Record ent := { e_uuid : nat; e_name : nat; e_field : nat; e_vector : bool; e_v3 : bool; e_bitmap : option (list nat); e_rows : list nat }.
Definition has (l : list nat) (x : nat) : bool := existsb (Nat.eqb x) l.
Definition covers (e : ent) (f : frag) : bool := match e_bitmap e with Some b => has b (f_id f) | None => false end.
Definition rows_of (l : list frag) : list nat := flat_map f_rows l.
(* load_indices_by_name, lance-index/src/traits.rs *)
Definition by_name (n : nat) (l : list ent) : list ent := filter (fun e => e_name e =? n) l.
(* the unwrap or ok_or of fragment_bitmap, for each of a list *)
Fixpoint bitmaps (l : list ent) : option (list nat) := match l with [] => Some [] | e :: t => obind (e_bitmap e) (fun b => omap (fun r => b ++ r) (bitmaps t)) end.
(* unindexed_fragments, index.rs 1005-1020 *)
Definition unindexed_fragments (frs : list frag) (l : list ent) (n : nat) : option (list frag) := omap (fun b => filter (fun f => negb (has b (f_id f))) frs) (bitmaps (by_name n l)).
(* the rows of a merged vector index: optimize_ivf_pq_indices, index/vector/ivf.rs 460-540, and optimize_vector_indices_v2 333-457
   with the builder of C134, which fails when a row of the merged indices is gone or there is no row, and indexes the whole dataset
   when it is not given new data *)
Definition merge_vector (frs : list frag) (v3 : bool) (old : list ent) (new : list frag) : option (list nat) :=
  if v3 then
    if forallb (fun i => has (rows_of frs) i) (flat_map e_rows old)
    then match flat_map e_rows old ++ rows_of (match new with [] => frs | _ => new end) with [] => None | r => Some r end
    else None
  else Some (flat_map e_rows old ++ rows_of new).
(* merge_indices, append.rs 25-152: the rows of the new index, how many of the last deltas it replaces, and its fragments *)
Definition merge_indices (frs : list frag) (all deltas : list ent) (num : nat) : option (list nat * nat * list nat) :=
  match deltas with
  | [] => None
  | d :: _ =>
    if negb (forallb (fun e => Bool.eqb (e_vector e) (e_vector d)) deltas) then None else
    obind (unindexed_fragments frs all (e_name d)) (fun new =>
    if e_vector d then
      let start := length deltas - num in
      obind (bitmaps (skipn start deltas)) (fun b =>
      omap (fun rows => (rows, length deltas - start, map f_id new ++ b)) (merge_vector frs (e_v3 d) (skipn start deltas) new))
    else omap (fun b => (e_rows d ++ rows_of new, 1, map f_id new ++ b)) (bitmaps deltas))
  end.
(* the body of the loop, index.rs 514-542: what is added and what is removed for a name *)
Definition optimize_one (frs : list frag) (all : list ent) (num : nat) (fresh : nat -> nat) (n : nat) : option (list ent * list ent) :=
  let deltas := by_name n all in
  obind (merge_indices frs all deltas num) (fun '(rows, merged, b) =>
  let keep := length deltas - merged in
  let removed := skipn keep deltas in
  obind (bitmaps removed) (fun rb =>
  match deltas with
  | [] => None
  | d :: _ => let l := last deltas d in
    Some (firstn keep deltas ++ [{| e_uuid := fresh n; e_name := e_name l; e_field := e_field l; e_vector := e_vector d; e_v3 := e_v3 d; e_bitmap := Some (b ++ rb); e_rows := rows |}], removed)
  end)).
Fixpoint optimize_names (frs : list frag) (all : list ent) (num : nat) (fresh : nat -> nat) (names : list nat) : option (list ent * list ent) :=
  match names with
  | [] => Some ([], [])
  | n :: t => obind (optimize_one frs all num fresh n) (fun '(a, r) => omap (fun '(a', r') => (a ++ a', r ++ r')) (optimize_names frs all num fresh t))
  end.
(* CreateIndex in build_manifest, transaction.rs 757-771 *)
Definition commit_indices (cur : list ent) (op : list ent * list ent) : list ent :=
  filter (fun e => negb (existsb (fun x => e_name x =? e_name e) (fst op)) && negb (existsb (fun x => e_uuid x =? e_uuid e) (snd op))) cur ++ fst op.
(* optimize_indices, index.rs 494-572: names are the distinct names of the indices that are asked for; the transaction is made from
   the indices that were read, and committed to those of the latest version *)
Definition optimize_indices (frs : list frag) (read : list ent) (num : nat) (fresh : nat -> nat) (names : list nat) (latest : list ent) : option (list ent) :=
  omap (fun op => match fst op with [] => latest | _ => commit_indices latest op end) (optimize_names frs read num fresh names).
(* create_index, index.rs 195-376 *)
Definition create_index (frs : list frag) (read : list ent) (name field : nat) (vector v3 replace : bool) (uuid : nat) (latest : list ent) : option (list ent) :=
  match by_name name read with
  | e :: _ => if negb (e_field e =? field) then None else if negb replace then None else
    Some (commit_indices latest ([{| e_uuid := uuid; e_name := name; e_field := field; e_vector := vector; e_v3 := v3; e_bitmap := Some (map f_id frs); e_rows := rows_of frs |}], []))
  | [] => Some (commit_indices latest ([{| e_uuid := uuid; e_name := name; e_field := field; e_vector := vector; e_v3 := v3; e_bitmap := Some (map f_id frs); e_rows := rows_of frs |}], []))
  end.
(* drop_index, index.rs 378-407 *)
Definition drop_index (read : list ent) (name : nat) (latest : list ent) : option (list ent) :=
  match by_name name read with [] => None | l => Some (commit_indices latest ([], l)) end.
(* index_statistics, index.rs 574-690, without migration: numbers of indexed and other fragments, and of their rows *)
Record istats := { i_frags : nat; i_other_frags : nat; i_rows : nat; i_other_rows : nat }.
Definition minus (a b : nat) : option nat := if b <=? a then Some (a - b) else None.
Fixpoint distinct (l : list nat) : bool := match l with [] => true | x :: t => negb (has t x) && distinct t end.
Definition index_statistics (frs : list frag) (all : list ent) (n : nat) : option istats :=
  match by_name n all with
  | [] => None
  | l => obind (bitmaps l) (fun _ =>
    let per := map (fun e => filter (covers e) frs) l in
    if negb (distinct (map f_id (concat per))) then None else
    let k := length (concat per) in
    let r := length (rows_of (concat per)) in
    obind (minus (length frs) k) (fun o => omap (fun ro => {| i_frags := k; i_other_frags := o; i_rows := r; i_other_rows := ro |}) (minus (length (rows_of frs)) r)))
  end.
