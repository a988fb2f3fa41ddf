(* Samplers: python/python/lance/sampler.py and
   python/python/lance/_dataset/sharded_batch_iterator.py.
   Rows are identified by their position in the dataset (or, after a filter, in
   the filtered scan).  Random choices are arguments: a theorem holds for every
   possible outcome.  A raised exception is None. *)
From Coq Require Import List Arith Bool.
From Verif Require Import Lib.
Import ListNotations.

(* Python range(start, stop, step), step > 0 *)
Definition pyrange (start stop step : nat) : list nat :=
  map (fun k => start + k * step) (seq 0 ((stop - start + (step - 1)) / step)).

(* ---- sharding ---- *)
(* sampler.py:372-380 ShardedFragmentSampler.iter_fragments and
   sharded_batch_iterator.py:113-123: `fragments` is the (identically shuffled)
   list of fragments *)
Definition shard_fragments {F} (fragments : list F) (rank world : nat) : list F :=
  flat_map (fun i => match nth_error fragments i with Some f => [f] | None => [] end) (pyrange rank (length fragments) world).
(* sampler.py:517-533 _sample_all._gen_ranges and sharded_batch_iterator.py:125-145 *)
Definition gen_ranges (rank world batch_size total : nat) : list (nat * nat) :=
  map (fun start => (start, Nat.min (start + batch_size) total)) (pyrange (rank * batch_size) total (world * batch_size)).
(* rows delivered by take_scan for these ranges *)
Definition range_rows (r : nat * nat) : list nat := seq (fst r) (snd r - fst r).

Definition take_idx {A} (l : list A) (idx : list nat) : list A :=
  flat_map (fun i => match nth_error l i with Some x => [x] | None => [] end) idx.
(* sampler.py:426-450 _shard_scan, the rows kept of each batch of the scan.
   pyarrow's RecordBatch.slice with an offset past the end (and so a negative
   length) is not a valid call: None. *)
Fixpoint shard_batches {A} (world skip : nat) (batches : list (list A)) : option (list (list A)) :=
  match batches with
  | [] => Some []
  | b :: t =>
      if length b <? skip then None
      else let b' := skipn skip b in
           match shard_batches world ((world - length b' mod world) mod world) t with
           | Some l => Some (take_idx b' (pyrange 0 (length b') world) :: l)
           | None => None
           end
  end.
(* sampler.py:458-467: cut batches of batch_size while more than batch_size rows
   are left; the fuel is the number of rows *)
Fixpoint cut {A} (fuel batch_size : nat) (b : list A) : list (list A) * list A :=
  match fuel with
  | O => ([], b)
  | S k => if batch_size <? length b then let '(l, r) := cut k batch_size (skipn batch_size b) in (firstn batch_size b :: l, r) else ([], b)
  end.
(* sampler.py:447-475; Table.from_batches([]) and to_batches()[0] of a table
   without rows raise *)
Fixpoint deliver {A} (batch_size : nat) (acc : list A) (batches : list (list A)) : option (list (list A)) :=
  match batches with
  | [] => match acc with [] => None | _ => Some [acc] end
  | b :: t => let acc' := acc ++ b in
              if batch_size <? length acc'
              then let '(out, rest) := cut (length acc') batch_size acc' in
                   match deliver batch_size rest t with Some l => Some (out ++ l) | None => None end
              else deliver batch_size acc' t
  end.
Definition shard_scan {A} (rank world batch_size : nat) (batches : list (list A)) : option (list (list A)) :=
  obind (shard_batches world rank batches) (deliver batch_size []).

(* sampler.py:488-515 (_sample_filtered with randomize) : a reservoir of k
   batches; heappushpop returns one of the k + 1 entries.  `reservoir k heap s
   out`: from this heap, reading s, out is delivered. *)
Inductive reservoir {A} (k : nat) : list A -> list A -> list A -> Prop :=
| res_done : forall heap out, Permutation.Permutation heap out -> reservoir k heap [] out
| res_push : forall heap x s out, length heap < k -> reservoir k (x :: heap) s out -> reservoir k heap (x :: s) out
| res_swap : forall heap x s y heap' out, k <= length heap -> Permutation.Permutation (x :: heap) (y :: heap') ->
    reservoir k heap' s out -> reservoir k heap (x :: s) (y :: out).
(* sampler.py:242-258 reservoir_sampling: the final heap *)
Inductive keep_heap {A} (k : nat) : list A -> list A -> list A -> Prop :=
| keep_done : forall heap, keep_heap k heap [] heap
| keep_push : forall heap x s out, length heap < k -> keep_heap k (x :: heap) s out -> keep_heap k heap (x :: s) out
| keep_swap : forall heap x s y heap' out, k <= length heap -> Permutation.Permutation (x :: heap) (y :: heap') ->
    keep_heap k heap' s out -> keep_heap k heap (x :: s) out.

(* ---- sampling n rows ---- *)
(* sampler.py:81-104, the rows taken.  rnd idx stands for
   np.random.randint(0, local_size - local_sample_size). *)
Fixpoint sample_chunks (starts : list nat) (idx num_sampled n chunk css total : nat) (rnd : nat -> nat) : list (list nat) :=
  match starts with
  | [] => []
  | i :: t =>
      if n <=? num_sampled then []
      else let local_size := Nat.min chunk (total - i) in
           let local_sample := Nat.min css local_size in
           let offset := if local_sample <? local_size then i + rnd idx else i in
           seq offset local_sample :: sample_chunks t (S idx) (num_sampled + css) n chunk css total rnd
  end.
Definition rnd_ok (starts : list nat) (chunk css total : nat) (rnd : nat -> nat) : Prop :=
  forall k i, nth_error starts k = Some i -> let ls := Nat.min chunk (total - i) in
    Nat.min css ls < ls -> rnd k < ls - Nat.min css ls.
(* 104-116: takes are buffered and delivered when batch_size rows are reached *)
Fixpoint buffer_takes {A} (batch_size : nat) (buf : list A) (takes : list (list A)) : list (list A) :=
  match takes with
  | [] => match buf with [] => [] | _ => [buf] end
  | t :: r => let buf' := buf ++ t in if batch_size <=? length buf' then buf' :: buffer_takes batch_size [] r else buffer_takes batch_size buf' r
  end.
(* sampler.py:76-116; range(0, total, 0) raises for max_takes > total *)
Definition efficient_sample (total n batch_size max_takes : nat) (rnd : nat -> nat) : option (list (list nat)) :=
  if (total <=? n) || (max_takes =? 0) || (total / max_takes =? 0) then None
  else let chunk := total / max_takes in
       Some (buffer_takes batch_size [] (sample_chunks (pyrange 0 total chunk) 0 0 n chunk (n / max_takes) total rnd)).

(* sampler.py:119-168 _filtered_efficient_sample: the shards' matching rows in
   shuffled order.  remaining_in_batch can become negative, so it is kept as
   the pair of what it was and what has been counted against it. *)
Fixpoint filtered_loop {A} (batch_size remaining : nat) (target counted : nat) (tables : list A) (shards : list (list A)) : list (list A) :=
  match shards with
  | [] => []
  | m :: t =>
      match m with
      | [] => filtered_loop batch_size remaining target counted tables t
      | _ =>
          let m' := firstn remaining m in
          let tables' := tables ++ m' in
          let remaining' := remaining - length m' in
          let counted' := counted + length m' in
          if target <=? counted'
          then let target2 := Nat.min batch_size remaining' in
               let leftover := skipn batch_size tables' in
               firstn batch_size tables' ::
               (if remaining' =? 0 then [] else filtered_loop batch_size remaining' target2 (length leftover) leftover t)
          else if remaining' =? 0 then [] else filtered_loop batch_size remaining' target counted' tables' t
      end
  end.
Definition ceil_div (a b : nat) : nat := (a + (b - 1)) / b.
Definition shard_rows (total shard_size shard : nat) : list nat := seq (shard * shard_size) (Nat.min (shard * shard_size + shard_size) total - shard * shard_size).
(* keep: does a row match the filter; shards: the shuffled shard numbers *)
Definition filtered_sample (total n batch_size target_takes : nat) (keep : nat -> bool) (shards : list nat) : list (list nat) :=
  filtered_loop batch_size n (Nat.min batch_size n) 0 []
    (map (fun s => filter keep (shard_rows total (ceil_div n target_takes) s)) shards).
Definition num_shards (total n target_takes : nat) : nat := ceil_div total (ceil_div n target_takes).

(* sampler.py:224-230: the last branch of maybe_sample *)
Fixpoint choice_batches {A} (fuel batch_size idx : nat) (choices : list A) : list (list A) :=
  match fuel with
  | O => []
  | S k => if idx <? length choices
           then firstn (Nat.min (idx + batch_size) (length choices) - idx) (skipn idx choices) :: choice_batches k batch_size (idx + batch_size) choices
           else []
  end.
