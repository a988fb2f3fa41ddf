(* Compaction: planning (rust/lance/src/dataset/optimize.rs) and the mapping of
   row addresses (rust/lance/src/dataset/optimize/remapping.rs). *)
From Coq Require Import List Arith NArith Bool.
From Verif Require Import Lib AMap SerdeModel.
Import ListNotations.

(* ---- planning ---- *)
(* a fragment of the manifest with its metrics (optimize.rs:254-290) *)
Record pfrag := { p_id : N; p_rows : nat (* physical_rows *); p_del : nat (* num_deletions *) }.
(* FragmentMetrics::num_rows, optimize.rs:275-277 *)
Definition num_rows (f : pfrag) : nat := p_rows f - p_del f.
(* optimize.rs:369-375 *)
Inductive candidacy := WithNeighbors | Itself.
(* What plan_compaction reads of the options: target_rows_per_fragment, and the
   f32 comparison `materialize_deletions && deletion_percentage() > threshold`
   as a function of (physical_rows, num_deletions). *)
Record options := { o_target : nat; o_materialize : nat -> nat -> bool }.
(* optimize.rs:509-521 *)
Definition candidate (o : options) (f : pfrag) : option candidacy :=
  if o_materialize o (p_rows f) (p_del f) then Some Itself
  else if p_rows f <? o_target o then Some WithNeighbors else None.
(* CandidateBin, optimize.rs:378-384: the parallel vectors fragments, candidacy
   and row_counts as one vector; pos_range is not used for the plan *)
Record bin := { b_items : list (pfrag * candidacy); b_indices : list nat }.
(* optimize.rs:388-398 *)
Definition is_noop (b : bin) : bool :=
  match b_items b with
  | [] => true
  | [(_, WithNeighbors)] => true
  | [(_, Itself)] => false
  | _ => false
  end.
(* An index for load_index_fragmaps (optimize.rs:436-449): its bitmap if it has
   one, and max_fragment_id of the version it was built on *)
Record pindex := { pi_bitmap : option (list N); pi_max : N }.
Definition fragmap (ix : pindex) (id : N) : bool :=
  match pi_bitmap ix with Some l => memN id l | None => (id <? pi_max ix)%N end.
(* optimize.rs:481-488 indices_containing_frag *)
Fixpoint indices_from (pos : nat) (ixs : list pindex) (id : N) : list nat :=
  match ixs with
  | [] => []
  | ix :: t => if fragmap ix id then pos :: indices_from (S pos) t id else indices_from (S pos) t id
  end.
Definition indices_containing (ixs : list pindex) (id : N) : list nat := indices_from 0 ixs id.
Definition eqb_list (a b : list nat) : bool := if list_eq_dec Nat.eq_dec a b then true else false.
(* the loop, optimize.rs:490-555, and the flush *)
Fixpoint bins_loop (o : options) (ixs : list pindex) (cur : option bin) (l : list pfrag) : list bin :=
  match l with
  | [] => match cur with Some b => [b] | None => [] end
  | f :: t =>
      let indices := indices_containing ixs (p_id f) in
      match candidate o f, cur with
      | None, None => bins_loop o ixs None t
      | Some c, None => bins_loop o ixs (Some {| b_items := [(f, c)]; b_indices := indices |}) t
      | Some c, Some b =>
          if eqb_list (b_indices b) indices
          then bins_loop o ixs (Some {| b_items := b_items b ++ [(f, c)]; b_indices := b_indices b |}) t
          else b :: bins_loop o ixs (Some {| b_items := [(f, c)]; b_indices := indices |}) t
      | None, Some b => b :: bins_loop o ixs None t
      end
  end.
(* optimize.rs:400-433 split_for_size.  bin_len of the inner loop *)
Fixpoint bin_len (min acc : nat) (items : list (pfrag * candidacy)) : nat :=
  match items with
  | [] => 0
  | (f, _) :: t => if acc <? min then S (bin_len min (acc + num_rows f) t) else 0
  end.
Definition rows_of (items : list (pfrag * candidacy)) : nat := fold_right (fun x n => num_rows (fst x) + n) 0 items.
(* the outer loop; None: not finished within the fuel *)
Fixpoint split_for_size (fuel min : nat) (items : list (pfrag * candidacy)) : option (list (list (pfrag * candidacy))) :=
  match fuel with
  | O => None
  | S k => let n := bin_len min 0 items in
           if min <=? rows_of (skipn n items)
           then match split_for_size k min (skipn n items) with Some r => Some (firstn n items :: r) | None => None end
           else Some [items]
  end.
(* optimize.rs:557-571; the tasks as lists of fragments *)
Definition plan_compaction (fuel : nat) (o : options) (ixs : list pindex) (frags : list pfrag) : option (list (list pfrag)) :=
  match sequence_opt (map (fun b => split_for_size fuel (o_target o) (b_items b)) (filter (fun b => negb (is_noop b)) (bins_loop o ixs None frags))) with
  | Some l => Some (map (map fst) (concat l))
  | None => None
  end.

(* ---- remapping of row addresses ---- *)
Local Open Scope N_scope.
(* what MissingIds and transpose_row_ids read of a fragment: id, physical_rows *)
Definition rfrag : Type := N * N.
(* remapping.rs:99-141 MissingIds::next, iterated until it returns None.  rows:
   what is left of the row_ids iterator; frags: fragments[current_fragment_idx..];
   expected and last are the fields; the fuel bounds the iterations of `loop`. *)
Fixpoint missing_ids (fuel : nat) (rows : list N) (last : option N) (frags : list rfrag) (expected : N) : list N :=
  match fuel, frags with
  | S k, (id, phys) :: more =>
      let '(val, rows') := match last with Some v => (v, rows) | None => match rows with [] => (0, []) | r :: t => (r, t) end end in
      let e := expected in
      let expected1 := expected + 1 in
      let '(frags', expected') :=
        if expected1 mod two32 =? phys
        then (more, match more with (id2, _) :: _ => id2 * two32 | [] => expected1 end)
        else (frags, expected1) in
      if negb (val / two32 =? id) then e :: missing_ids k rows' (Some val) frags' expected'
      else if negb (val =? e) then e :: missing_ids k rows' (Some val) frags' expected'
      else missing_ids k rows' None frags' expected'
  | _, _ => []
  end.
(* remapping.rs:83-93 new: panics without fragments (None) *)
Definition missing (fuel : nat) (rows : list N) (frags : list rfrag) : option (list N) :=
  match frags with [] => None | (id, _) :: _ => Some (missing_ids fuel rows None frags (id * two32)) end.
(* remapping.rs:148-155: the addresses of the new fragments, in order
   (`as u32` of ids and row counts) *)
Definition new_ids (new_fragments : list rfrag) : list N :=
  flat_map (fun f => map (fun o => addr_of (fst f mod two32) o) (nrange 0 (N.to_nat (snd f mod two32)))) new_fragments.
(* remapping.rs:143-177; the HashMap as a list of insertions in order, the last
   insertion of a key wins *)
Definition transpose_row_ids (fuel : nat) (row_ids : list N) (old new : list rfrag) : option (list (N * option N)) :=
  match missing fuel row_ids old with
  | None => None
  | Some m => Some (map (fun p => (fst p, Some (snd p))) (combine row_ids (new_ids new)) ++ map (fun a => (a, None)) m)
  end.
Definition lookup (m : list (N * option N)) (a : N) : option (option N) :=
  fold_left (fun acc kv => if fst kv =? a then Some (snd kv) else acc) m None.
