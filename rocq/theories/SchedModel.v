(* The I/O scheduler: rust/lance-io/src/scheduler.rs.
   Part 1: FileScheduler::submit_request (coalescing of byte ranges).
   Part 2: the queue, the I/O loop and the accounting of IOPS and bytes.
   Byte positions are natural numbers (u64 overflow of end + block_size is not
   modelled). *)
From Coq Require Import List Arith ZArith Bool.
From Verif Require Import Lib.
Import ListNotations.

(* ---- part 1: coalescing ---- *)
Notation range := (nat * nat)%type.   (* Range<u64>: start, end *)
(* scheduler.rs:681-684 *)
Definition is_close_together (r1 r2 : range) (block_size : nat) : bool := fst r2 <=? snd r1 + block_size.
(* scheduler.rs:686-688 *)
Definition is_overlapping (r1 r2 : range) : bool := (fst r1 <? snd r2) && (fst r2 <? snd r1).
(* scheduler.rs:710-726: the loop over request.iter().skip(1) and the final push *)
Fixpoint coalesce (block_size : nat) (curr : range) (rest : list range) : list range :=
  match rest with
  | [] => [curr]
  | req :: t => if is_close_together curr req block_size
                then coalesce block_size (fst curr, Nat.max (snd curr) (snd req)) t
                else curr :: coalesce block_size req t
  end.
Definition updated_requests (block_size : nat) (request : list range) : list range :=
  match request with [] => [] | r :: t => coalesce block_size r t end.
(* what a read of the object store returns: the bytes of the range, or an error
   past the end of the file (scheduler.rs:474-488; an empty range is not sent to
   the store) *)
Definition read {B} (file : list B) (r : range) : option (list B) :=
  if fst r =? snd r then Some []
  else if (fst r <? snd r) && (snd r <=? length file) then Some (firstn (snd r - fst r) (skipn (fst r) file)) else None.
Inductive res (A : Type) := Done (x : A) | Failed | Panic.
Arguments Done {A}. Arguments Failed {A}. Arguments Panic {A}.
(* Bytes::slice panics unless start <= end <= len; `orig_range.start - byte_offset`
   underflows (panic in a debug build; a wrapped start makes slice panic in a
   release build) *)
Definition slice {B} (buf : list B) (orig : range) (byte_offset : nat) : option (list B) :=
  if (byte_offset <=? fst orig) && (byte_offset <=? snd orig) && (fst orig <=? snd orig) && (snd orig - byte_offset <=? length buf)
  then Some (firstn (snd orig - fst orig) (skipn (fst orig - byte_offset) buf)) else None.
(* scheduler.rs:735-757: the loop; the fuel is the number of iterations, each of
   which advances one of the two indices *)
Fixpoint reslice {B} (fuel : nat) (updated : list (range * list B)) (request : list range) : res (list (list B)) :=
  match fuel, updated, request with
  | S k, (u, buf) :: us, o :: os =>
      if is_overlapping u o
      then match slice buf o (fst u) with
           | None => Panic
           | Some x => match reslice k updated os with Done l => Done (x :: l) | e => e end
           end
      else reslice k us request
  | _, _, _ => Done []
  end.
(* scheduler.rs:700-760 submit_request, as the bytes its future resolves to *)
Definition submit_request {B} (file : list B) (block_size : nat) (request : list range) : res (list (list B)) :=
  let updated := updated_requests block_size request in
  match sequence_opt (map (read file) updated) with
  | None => Failed
  | Some bufs => reslice (length updated + length request) (combine updated bufs) request
  end.
(* scheduler.rs:767-774 submit_single: into_iter().next().unwrap() *)
Definition submit_single {B} (file : list B) (block_size : nat) (r : range) : res (list B) :=
  match submit_request file block_size [r] with
  | Done (x :: _) => Done x
  | Done [] => Panic
  | Failed => Failed
  | Panic => Panic
  end.

(* ---- part 2: the queue ---- *)
(* scheduler.rs:441-446 IoTask; the batch is what its when_done closure points to *)
Record task := { t_batch : nat; t_idx : nat; t_bytes : nat; t_prio : nat }.
(* scheduler.rs:355-372 MutableBatch with the receiving end of its channel.
   b_tasks: the request; b_unpushed: what do_submit_request has still to push;
   b_done, b_bytes: number of deliver_data calls and MutableBatch::num_bytes;
   b_gone: the future was dropped by the caller. *)
Record batch := { b_id : nat; b_prio : nat; b_tasks : list task; b_unpushed : list task; b_done : nat; b_bytes : nat; b_gone : bool }.
Inductive lstate := Check | Wait | Exited.
(* IoQueueState (178-195), Notify's stored permit, and where each task is:
   pending in the heap, running, done but its data not yet delivered (between
   on_iop_complete and deliver_data), or delivered to a batch that has not been
   consumed.  The process-wide IOPS_QUOTA (unlimited by default) is not
   modelled. *)
Record st := { iops : nat; bytes : Z; pend : list task; inflight : list nat; closed : bool; loop : lstate; permit : bool;
               run : list task; deliv : list task; fin : list task; batches : list batch }.
(* 197-209; 533-543 ScanScheduler::new *)
Definition init (capacity budget : nat) : st :=
  {| iops := capacity; bytes := Z.of_nat budget; pend := []; inflight := []; closed := false; loop := Check; permit := false;
     run := []; deliv := []; fin := []; batches := [] |}.
(* 146-176 PrioritiesInFlight: a sorted vector; u128::MAX for none is None *)
Definition min_in_flight (l : list nat) : option nat := hd_error l.
Fixpoint prio_push (p : nat) (l : list nat) : list nat :=
  match l with [] => [p] | x :: t => if p <=? x then p :: l else x :: prio_push p t end.
Fixpoint prio_remove (p : nat) (l : list nat) : option (list nat) :=
  match l with
  | [] => None
  | x :: t => if p =? x then Some t else omap (cons x) (prio_remove p t)
  end.
Fixpoint prio_remove_n (n p : nat) (l : list nat) : option (list nat) :=
  match n with O => Some l | S k => obind (prio_remove p l) (prio_remove_n k p) end.
(* 232-242 *)
Definition can_deliver (s : st) (t : task) : bool :=
  if iops s =? 0 then false
  else if match min_in_flight (inflight s) with None => true | Some m => t_prio t <=? m end then true
  else negb (bytes s <? Z.of_nat (t_bytes t))%Z.
(* BinaryHeap::peek with the inverted order (464-469): some task of least
   priority value *)
Definition peek (l : list task) (t : task) : Prop := In t l /\ forall u, In u l -> t_prio t <= t_prio u.
(* 244-261: the effect of delivering t *)
Definition take_task (s : st) (t : task) (rest : list task) : st :=
  {| iops := iops s - 1; bytes := (bytes s - Z.of_nat (t_bytes t))%Z; pend := rest; inflight := prio_push (t_prio t) (inflight s);
     closed := closed s; loop := Check; permit := permit s; run := t :: run s; deliv := deliv s; fin := fin s; batches := batches s |}.
Definition upd_batch (i : nat) (f : batch -> batch) (l : list batch) : list batch := map (fun b => if b_id b =? i then f b else b) l.
Definition of (i : nat) (l : list task) : list task := filter (fun t => t_batch t =? i) l.
Definition sum_bytes (l : list task) : nat := fold_right (fun t n => t_bytes t + n) 0 l.
(* the tasks of a request: do_submit_request 580-596 *)
Fixpoint mk_tasks (i prio idx : nat) (sizes : list nat) : list task :=
  match sizes with [] => [] | n :: t => {| t_batch := i; t_idx := idx; t_bytes := n; t_prio := prio |} :: mk_tasks i prio (S idx) t end.
(* the MutableBatch is dropped, and so its response sent, when the closures of all
   its tasks and do_submit_request have released it *)
Definition ready (b : batch) : Prop := b_unpushed b = [] /\ b_done b = length (b_tasks b).

Inductive step : st -> st -> Prop :=
(* 572-579 of do_submit_request *)
| s_submit : forall s i prio sizes, closed s = false -> ~ In i (map b_id (batches s)) ->
    step s {| iops := iops s; bytes := bytes s; pend := pend s; inflight := inflight s; closed := closed s; loop := loop s; permit := permit s;
              run := run s; deliv := deliv s; fin := fin s;
              batches := {| b_id := i; b_prio := prio; b_tasks := mk_tasks i prio 0 sizes; b_unpushed := mk_tasks i prio 0 sizes;
                            b_done := 0; b_bytes := 0; b_gone := false |} :: batches s |}
(* 282-296 IoQueue::push of the next task of a request *)
| s_push : forall s b t rest, In b (batches s) -> b_unpushed b = t :: rest ->
    step s {| iops := iops s; bytes := bytes s; pend := t :: pend s; inflight := inflight s; closed := closed s; loop := loop s; permit := true;
              run := run s; deliv := deliv s; fin := fin s;
              batches := upd_batch (b_id b) (fun b => {| b_id := b_id b; b_prio := b_prio b; b_tasks := b_tasks b; b_unpushed := rest;
                            b_done := b_done b; b_bytes := b_bytes b; b_gone := b_gone b |}) (batches s) |}
(* 298-321 IoQueue::pop *)
| s_pop : forall s l1 t l2, loop s = Check -> pend s = l1 ++ t :: l2 -> peek (pend s) t -> can_deliver s t = true ->
    step s (take_task s t (l1 ++ l2))
| s_wait : forall s, loop s = Check -> (pend s = [] \/ exists t, peek (pend s) t /\ can_deliver s t = false) ->
    ~ (closed s = true /\ pend s = []) ->
    step s {| iops := iops s; bytes := bytes s; pend := pend s; inflight := inflight s; closed := closed s; loop := Wait; permit := permit s;
              run := run s; deliv := deliv s; fin := fin s; batches := batches s |}
| s_wake : forall s, loop s = Wait -> permit s = true ->
    step s {| iops := iops s; bytes := bytes s; pend := pend s; inflight := inflight s; closed := closed s; loop := Check; permit := false;
              run := run s; deliv := deliv s; fin := fin s; batches := batches s |}
| s_exit : forall s, loop s = Check -> closed s = true -> pend s = [] ->
    step s {| iops := iops s; bytes := bytes s; pend := pend s; inflight := inflight s; closed := closed s; loop := Exited; permit := permit s;
              run := run s; deliv := deliv s; fin := fin s; batches := batches s |}
(* 474-490 IoTask::run up to on_iop_complete (323-329) *)
| s_iop_done : forall s l1 t l2, run s = l1 ++ t :: l2 ->
    step s {| iops := iops s + 1; bytes := bytes s; pend := pend s; inflight := inflight s; closed := closed s; loop := loop s; permit := true;
              run := l1 ++ l2; deliv := t :: deliv s; fin := fin s; batches := batches s |}
(* 417-432 deliver_data *)
| s_deliver : forall s l1 t l2, deliv s = l1 ++ t :: l2 ->
    step s {| iops := iops s; bytes := bytes s; pend := pend s; inflight := inflight s; closed := closed s; loop := loop s; permit := permit s;
              run := run s; deliv := l1 ++ l2; fin := t :: fin s;
              batches := upd_batch (t_batch t) (fun b => {| b_id := b_id b; b_prio := b_prio b; b_tasks := b_tasks b; b_unpushed := b_unpushed b;
                            b_done := S (b_done b); b_bytes := b_bytes b + t_bytes t; b_gone := b_gone b |}) (batches s) |}
(* 603-621 the caller's future receives the response; 331-340 on_bytes_consumed *)
| s_consume : forall s b fl, In b (batches s) -> ready b -> b_gone b = false -> prio_remove_n (length (b_tasks b)) (b_prio b) (inflight s) = Some fl ->
    step s {| iops := iops s; bytes := (bytes s + Z.of_nat (b_bytes b))%Z; pend := pend s; inflight := fl; closed := closed s; loop := loop s; permit := true;
              run := run s; deliv := deliv s; fin := filter (fun t => negb (t_batch t =? b_id b)) (fin s);
              batches := filter (fun c => negb (b_id c =? b_id b)) (batches s) |}
(* the caller drops the future *)
| s_abandon : forall s b, In b (batches s) ->
    step s {| iops := iops s; bytes := bytes s; pend := pend s; inflight := inflight s; closed := closed s; loop := loop s; permit := permit s;
              run := run s; deliv := deliv s; fin := fin s;
              batches := upd_batch (b_id b) (fun b => {| b_id := b_id b; b_prio := b_prio b; b_tasks := b_tasks b; b_unpushed := b_unpushed b;
                            b_done := b_done b; b_bytes := b_bytes b; b_gone := true |}) (batches s) |}
(* 341-347 close, by Drop of the scheduler: every FileScheduler holds a reference
   to it, so no submission is under way *)
| s_close : forall s, (forall b, In b (batches s) -> b_unpushed b = []) ->
    step s {| iops := iops s; bytes := bytes s; pend := pend s; inflight := inflight s; closed := true; loop := loop s; permit := true;
              run := run s; deliv := deliv s; fin := fin s; batches := batches s |}.
(* PrioritiesInFlight::remove reaches unreachable!() (169) *)
Definition panics (s : st) : Prop :=
  exists b, In b (batches s) /\ ready b /\ b_gone b = false /\ prio_remove_n (length (b_tasks b)) (b_prio b) (inflight s) = None.

Inductive steps : st -> st -> Prop :=
| steps_refl : forall s, steps s s
| steps_cons : forall s s' s'', step s s' -> steps s' s'' -> steps s s''.
Definition reachable (capacity budget : nat) (s : st) : Prop := steps (init capacity budget) s.
