(* Two halves of a shared stream: rust/lance-core/src/utils/futures.rs.
   A step is what one half does while it holds the mutex, or what the executor does; between the two steps of a poll the mutex is
   free, and the other half may run on another thread.
   Simplifications: the stream inside gives the items of a list, and may be pending at any time; after it was pending it wakes whoever
   polled it last. A half is polled when its task runs; a task that got Pending runs again when it is woken. The semaphore is that of
   tokio: permits, and the one future that PollSemaphore keeps, which is given a permit before anyone else and then wakes the task
   that polled it last. The count of buffered items does not overflow. The permit is
   returned and the other task woken in the step in which the mutex is released, not just after it. *)
From Coq Require Import List Arith Bool.
Import ListNotations.
Local Open Scope nat_scope.

(* Side 15-18 *)
Inductive side := Left | Right.
Definition other (s : side) : side := match s with Left => Right | Right => Left end.
Definition side_eqb (a b : side) : bool := match a, b with Left, Left | Right, Right => true | _, _ => false end.
Definition set {A} (f : side -> A) (s : side) (v : A) : side -> A := fun x => if side_eqb x s then v else f x.
(* a task: can run, is between the two parts of poll_next, sleeps, has seen the end, or was dropped *)
Inductive phase := Run | Flight | Wait | Fin | Gone.
(* the future in PollSemaphore: not waiting, waiting for a task, or given a permit *)
Inductive fut := FNone | FWait (s : side) | FReady.

Section Share.
  Context {T : Type}.
  (* InnerState 27-36; inner is absent when taken; buffered is left_buffered and right_buffered; permits is None when the capacity is
     unbounded; then what is outside: the items to come, the waker kept by the stream inside, the tasks, whether a task was woken
     while it was polled, and what each half has returned *)
  Record st := { src : list T; buf : list T; polling : option side; waker : option side; exhausted : bool; buffered : side -> nat; permits : option nat; sem : fut;
    taken : bool; innerw : option side; ph : side -> phase; woken : side -> bool; out : side -> list T }.
  (* new 45-74 *)
  Definition start (items : list T) (cap : option nat) : st :=
    {| src := items; buf := []; polling := None; waker := None; exhausted := false; buffered := fun _ => 0; permits := cap; sem := FNone;
       taken := false; innerw := None; ph := fun _ => Run; woken := fun _ => false; out := fun _ => [] |}.
  Definition with_ph (x : st) (s : side) (p : phase) : st :=
    {| src := src x; buf := buf x; polling := polling x; waker := waker x; exhausted := exhausted x; buffered := buffered x; permits := permits x; sem := sem x;
       taken := taken x; innerw := innerw x; ph := set (ph x) s p; woken := woken x; out := out x |}.
  (* Waker::wake *)
  Definition wake (x : st) (s : side) : st :=
    match ph x s with
    | Wait => with_ph x s Run
    | Flight => {| src := src x; buf := buf x; polling := polling x; waker := waker x; exhausted := exhausted x; buffered := buffered x; permits := permits x; sem := sem x;
        taken := taken x; innerw := innerw x; ph := ph x; woken := set (woken x) s true; out := out x |}
    | _ => x
    end.
  Definition with_sem (x : st) (k : option nat) (f : fut) : st :=
    {| src := src x; buf := buf x; polling := polling x; waker := waker x; exhausted := exhausted x; buffered := buffered x; permits := k; sem := f;
       taken := taken x; innerw := innerw x; ph := ph x; woken := woken x; out := out x |}.
  (* add_permits, and a permit that is dropped *)
  Definition release (x : st) : st :=
    match permits x with
    | None => x
    | Some k => match sem x with FWait s => wake (with_sem x (Some k) FReady) s | f => with_sem x (Some (S k)) f end
    end.
  (* PollSemaphore::poll_acquire 109-120; false: pending *)
  Definition acquire (x : st) (s : side) : bool * st :=
    match permits x with
    | None => (true, x)
    | Some k => match sem x with
      | FReady => (true, with_sem x (Some k) FNone)
      | FNone => match k with 0 => (false, with_sem x (Some 0) (FWait s)) | S k' => (true, with_sem x (Some k') FNone) end
      | FWait _ => (false, with_sem x (Some k) (FWait s))
      end
    end.
  (* Poll::Ready(Some(v)) is returned *)
  Definition give (x : st) (s : side) (v : T) : st :=
    {| src := src x; buf := buf x; polling := polling x; waker := waker x; exhausted := exhausted x; buffered := buffered x; permits := permits x; sem := sem x;
       taken := taken x; innerw := innerw x; ph := ph x; woken := woken x; out := set (out x) s (out x s ++ [v]) |}.
  (* poll_next 80-140, up to where the mutex is released; None: the expect fails *)
  Definition poll (x : st) (s : side) : option st :=
    if 0 <? buffered x s then
      let x1 := {| src := src x; buf := tl (buf x); polling := polling x; waker := waker x; exhausted := exhausted x; buffered := set (buffered x) s (buffered x s - 1);
        permits := permits x; sem := sem x; taken := taken x; innerw := innerw x; ph := ph x; woken := woken x; out := out x |} in
      Some (release (match buf x with v :: _ => give x1 s v | [] => with_ph x1 s Fin end))
    else if exhausted x then Some (with_ph x s Fin)
    else let '(got, x1) := acquire x s in
      if negb got then Some (with_ph x1 s Wait) else
      if match polling x1 with Some p => negb (side_eqb p s) | None => false end then
        Some (release (with_ph {| src := src x1; buf := buf x1; polling := polling x1; waker := Some s; exhausted := exhausted x1; buffered := buffered x1; permits := permits x1; sem := sem x1;
          taken := taken x1; innerw := innerw x1; ph := ph x1; woken := woken x1; out := out x1 |} s Wait))
      else if taken x1 then None else
        Some {| src := src x1; buf := buf x1; polling := Some s; waker := waker x1; exhausted := exhausted x1; buffered := buffered x1; permits := permits x1; sem := sem x1;
          taken := true; innerw := innerw x1; ph := set (ph x1) s Flight; woken := set (woken x1) s false; out := out x1 |}.
  (* 175-185 *)
  Definition wake_other (x : st) : st :=
    match waker x with
    | None => x
    | Some w => wake {| src := src x; buf := buf x; polling := polling x; waker := None; exhausted := exhausted x; buffered := buffered x; permits := permits x; sem := sem x;
        taken := taken x; innerw := innerw x; ph := ph x; woken := woken x; out := out x |} w
    end.
  (* poll_next 142-187, after the stream inside was polled; pend: it was pending *)
  Definition finish (x : st) (s : side) (pend : bool) : st :=
    if pend then
      release (with_ph {| src := src x; buf := buf x; polling := polling x; waker := waker x; exhausted := exhausted x; buffered := buffered x; permits := permits x; sem := sem x;
        taken := false; innerw := Some s; ph := ph x; woken := woken x; out := out x |} s (if woken x s then Run else Wait))
    else match src x with
    | [] => release (wake_other (with_ph {| src := []; buf := buf x; polling := None; waker := waker x; exhausted := true; buffered := buffered x; permits := permits x; sem := sem x;
        taken := false; innerw := None; ph := ph x; woken := woken x; out := out x |} s Fin))
    | v :: rest => wake_other (with_ph (give {| src := rest; buf := buf x ++ [v]; polling := None; waker := waker x; exhausted := exhausted x;
        buffered := set (buffered x) (other s) (S (buffered x (other s))); permits := permits x; sem := sem x; taken := false; innerw := None; ph := ph x; woken := woken x; out := out x |} s v) s Run)
    end.
  (* the steps: a task that runs polls, the poll ends, the stream inside wakes, a task is polled for another reason, a half is dropped *)
  Inductive label := LPoll (s : side) | LFinish (s : side) (pend : bool) | LInner | LSpurious (s : side) | LDrop (s : side).
  Definition is (a b : phase) : bool := match a, b with Run, Run | Flight, Flight | Wait, Wait | Fin, Fin | Gone, Gone => true | _, _ => false end.
  (* None: the step is not possible; Some None: a panic *)
  Definition step (x : st) (l : label) : option (option st) :=
    match l with
    | LPoll s => if is (ph x s) Run then Some (poll x s) else None
    | LFinish s pend => if is (ph x s) Flight then Some (Some (finish x s pend)) else None
    | LInner => match innerw x with Some s => Some (Some (wake {| src := src x; buf := buf x; polling := polling x; waker := waker x; exhausted := exhausted x; buffered := buffered x; permits := permits x; sem := sem x;
        taken := taken x; innerw := None; ph := ph x; woken := woken x; out := out x |} s)) | None => None end
    | LSpurious s => if is (ph x s) Wait then Some (Some (with_ph x s Run)) else None
    | LDrop s => if is (ph x s) Run || is (ph x s) Wait then Some (Some (with_ph x s Gone)) else None
    end.
End Share.
