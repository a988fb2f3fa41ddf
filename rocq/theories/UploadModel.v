(* ObjectWriter: rust/lance-io/src/object_writer.rs, the writer behind every file,
   manifest and index that Lance writes.
   A poll is a function of the writer and of a list of events: what the pending
   futures turn out to be when they are polled, in the order in which they are
   polled (an empty list, or an event that does not fit, is a future that is not
   ready).  So a theorem for all lists of events holds for every interleaving of
   the uploads with the writer.
   part_idx is a natural number (u16 in the code: at most 65535 parts). *)
From Coq Require Import List Arith Bool.
From Verif Require Import Lib.
Import ListNotations.

(* 24-66: the constants and the environment variables; use_constant_size_upload_parts;
   strict: MultipartUpload::complete fails when a part of the upload failed
   (object_store's Parts::finish: "Missing part"), otherwise it joins the parts that
   succeeded *)
Record config := { step : nat; initial : nat; parallelism : nat; max_resets : nat; constant : bool; strict : bool }.
Inductive pstatus := Running | Uploaded | Lost.
(* a part that was given to MultipartUpload::put_part; parts of an upload are kept
   in the order of the calls, which is the order in which they make up the object
   (the contract of MultipartUpload) *)
Record part (B : Type) := { p_data : list B; p_status : pstatus }.
Arguments p_data {B}. Arguments p_status {B}. Arguments Build_part {B}.
(* 83-103 UploadState.  The futures of InProgress (a JoinSet) are the Running parts *)
Inductive ustate (B : Type) :=
| Started
| CreatingUpload
| InProgress (part_idx : nat) (parts : list (part B))
| PuttingSingle (data : list B)
| Completing (parts : list (part B))
| Done.
Arguments Started {B}. Arguments CreatingUpload {B}. Arguments InProgress {B}. Arguments PuttingSingle {B}. Arguments Completing {B}. Arguments Done {B}.
(* 73-81 ObjectWriter, with the object as the store has it *)
Record writer (B : Type) := { w_state : ustate B; w_cursor : nat; w_resets : nat; w_buffer : list B; w_capacity : nat; w_object : option (list B) }.
Arguments w_state {B}. Arguments w_cursor {B}. Arguments w_resets {B}. Arguments w_buffer {B}. Arguments w_capacity {B}. Arguments w_object {B}.
Arguments Build_writer {B}.
Inductive perr := Reset | Other.
Inductive event := NotReady | Ok (i : nat) | Err (i : nat) (e : perr).
(* what poll_tasks returns, and whether the future polled last will wake the task *)
Inductive polled := Fine (wakes : bool) | Error.

Section Writer.
Context {B : Type}.
Variable cfg : config.
Notation writer := (writer B). Notation part := (part B).
(* 143-153 *)
Definition new : writer := Build_writer Started 0 0 [] (initial cfg) None.
Definition set_state (w : writer) (s : ustate B) : writer := Build_writer s (w_cursor w) (w_resets w) (w_buffer w) (w_capacity w) (w_object w).
(* 155-169 next_part_buffer: the part and the writer with the new buffer *)
Definition new_capacity (part_idx : nat) : nat :=
  if constant cfg then initial cfg else Nat.max (initial cfg) ((part_idx / 100 + 1) * step cfg).
Definition next_part_buffer (w : writer) (part_idx : nat) : list B * writer :=
  (w_buffer w, Build_writer (w_state w) (w_cursor w) (w_resets w) [] (new_capacity part_idx) (w_object w)).
(* 171-193 put_part: one more part of the upload *)
Definition put_part (parts : list part) (data : list B) : list part := parts ++ [Build_part data Running].
Definition running (p : part) : bool := match p_status p with Running => true | _ => false end.
Definition lost (p : part) : bool := match p_status p with Lost => true | _ => false end.
(* JoinSet::len *)
Definition futures (parts : list part) : nat := length (filter running parts).
Fixpoint set_status (parts : list part) (i : nat) (s : pstatus) : list part :=
  match parts, i with
  | p :: t, 0 => Build_part (p_data p) s :: t
  | p :: t, S k => p :: set_status t k s
  | [], _ => []
  end.
Definition ready (parts : list part) (i : nat) : bool := match nth_error parts i with Some p => running p | None => false end.
(* MultipartUpload::complete *)
Definition complete (parts : list part) : option (list B) :=
  if existsb lost parts && strict cfg then None else Some (concat (map p_data (filter (fun p => negb (lost p)) parts))).
(* 195-283 poll_tasks: the loop; the state of a failed future is not used again *)
Fixpoint poll_tasks (ev : list event) (w : writer) {struct ev} : polled * writer * list event :=
  match w_state w with
  | Started | Done => (Fine false, w, ev)
  | CreatingUpload =>
      match ev with
      | Ok _ :: ev' =>
          let '(data, w1) := next_part_buffer w 0 in
          poll_tasks ev' (set_state w1 (InProgress 1 (put_part [] data)))
      | Err _ _ :: ev' => (Error, w, ev')
      | NotReady :: ev' => (Fine true, w, ev')
      | [] => (Fine true, w, [])
      end
  | InProgress idx parts =>
      if futures parts =? 0 then (Fine false, w, ev) else
      match ev with
      | Ok i :: ev' => if ready parts i then poll_tasks ev' (set_state w (InProgress idx (set_status parts i Uploaded))) else (Fine true, w, ev')
      | Err i Reset :: ev' =>
          if ready parts i then
            let data := match nth_error parts i with Some p => p_data p | None => [] end in
            if w_resets w <? max_resets cfg then
              poll_tasks ev' (Build_writer (InProgress idx (put_part (set_status parts i Lost) data)) (w_cursor w) (S (w_resets w)) (w_buffer w) (w_capacity w) (w_object w))
            else (Error, set_state w (InProgress idx (set_status parts i Lost)), ev')
          else (Fine true, w, ev')
      | Err i Other :: ev' =>
          if ready parts i then (Error, set_state w (InProgress idx (set_status parts i Lost)), ev') else (Fine true, w, ev')
      | NotReady :: ev' => (Fine true, w, ev')
      | [] => (Fine true, w, [])
      end
  | PuttingSingle data =>
      match ev with
      | Ok _ :: ev' => (Fine false, Build_writer Done (w_cursor w) (w_resets w) (w_buffer w) (w_capacity w) (Some data), ev')
      | Err _ _ :: ev' => (Error, w, ev')
      | NotReady :: ev' => (Fine true, w, ev')
      | [] => (Fine true, w, [])
      end
  | Completing parts =>
      match ev with
      | Ok _ :: ev' => match complete parts with
                       | Some data => (Fine false, Build_writer Done (w_cursor w) (w_resets w) (w_buffer w) (w_capacity w) (Some data), ev')
                       | None => (Error, w, ev')
                       end
      | Err _ _ :: ev' => (Error, w, ev')
      | NotReady :: ev' => (Fine true, w, ev')
      | [] => (Fine true, w, [])
      end
  end.
(* Poll<Result<..>>; Pending with whether something will wake the task *)
Inductive poll (T : Type) := Ready (x : T) | Pending (wakes : bool) | Fail.
Arguments Ready {T}. Arguments Pending {T}. Arguments Fail {T}.
(* 346-374: the next request when the buffer is full *)
Definition start_request (w : writer) : writer :=
  if w_capacity w =? length (w_buffer w) then
    match w_state w with
    | Started => set_state w CreatingUpload
    | InProgress idx parts =>
        if futures parts <? parallelism cfg then
          let '(data, w1) := next_part_buffer w idx in set_state w1 (InProgress (S idx) (put_part parts data))
        else w
    | _ => w
    end
  else w.
(* 335-382 poll_write *)
Definition poll_write (ev : list event) (w : writer) (buf : list B) : poll nat * writer :=
  let '(r, w, ev) := poll_tasks ev w in
  match r with Error => (Fail, w) | Fine _ =>
  let n := Nat.min (w_capacity w - length (w_buffer w)) (length buf) in
  let w := Build_writer (w_state w) (w_cursor w + n) (w_resets w) (w_buffer w ++ firstn n buf) (w_capacity w) (w_object w) in
  let '(r, w, _) := poll_tasks ev (start_request w) in
  match r with Error => (Fail, w) | Fine wakes => if n =? 0 then (Pending wakes, w) else (Ready n, w) end
  end.
(* 384-403 poll_flush *)
Definition poll_flush (ev : list event) (w : writer) : poll unit * writer :=
  let '(r, w, _) := poll_tasks ev w in
  match r with Error => (Fail, w) | Fine wakes =>
  match w_state w with
  | Started | Done => (Ready tt, w)
  | CreatingUpload | Completing _ | PuttingSingle _ => (Pending wakes, w)
  | InProgress _ parts => if futures parts =? 0 then (Ready tt, w) else (Pending wakes, w)
  end end.
(* 405-448 poll_shutdown; the fuel is the number of turns of the loop *)
Fixpoint shutdown_loop (fuel : nat) (ev : list event) (w : writer) : poll unit * writer :=
  match fuel with 0 => (Pending true, w) | S fuel =>
  let '(r, w, ev) := poll_tasks ev w in
  match r with Error => (Fail, w) | Fine wakes =>
  match w_state w with
  | Done => (Ready tt, w)
  | CreatingUpload | PuttingSingle _ | Completing _ => (Pending wakes, w)
  | Started => shutdown_loop fuel ev (Build_writer (PuttingSingle (w_buffer w)) (w_cursor w) (w_resets w) [] 0 (w_object w))
  | InProgress idx parts =>
      if negb (length (w_buffer w) =? 0) && (futures parts <? parallelism cfg) then
        shutdown_loop fuel ev (Build_writer (InProgress idx (put_part parts (w_buffer w))) (w_cursor w) (w_resets w) [] 0 (w_object w))
      else if futures parts =? 0 then shutdown_loop fuel ev (set_state w (Completing parts))
      else (Pending wakes, w)
  end end end.
(* at most: submit the last part, start completing, finish *)
Definition poll_shutdown (ev : list event) (w : writer) : poll unit * writer := shutdown_loop 4 ev w.
(* 451-455 *)
Definition tell (w : writer) : nat := w_cursor w.

(* a caller: polls of writes and flushes, then polls of shutdown, each with the
   events of that poll; the run stops at the first error.  The result: the bytes
   accepted, whether shutdown was ready, the writer *)
Inductive call := Write (buf : list B) (ev : list event) | Flush (ev : list event).
Fixpoint writes (l : list call) (w : writer) (acc : list B) : option (list B * writer) :=
  match l with
  | [] => Some (acc, w)
  | Write buf ev :: t => match poll_write ev w buf with
                         | (Ready n, w') => writes t w' (acc ++ firstn n buf)
                         | (Pending _, w') => writes t w' acc
                         | (Fail, _) => None
                         end
  | Flush ev :: t => match poll_flush ev w with (Fail, _) => None | (_, w') => writes t w' acc end
  end.
Fixpoint shutdowns (l : list (list event)) (w : writer) : option (bool * writer) :=
  match l with
  | [] => Some (false, w)
  | ev :: t => match poll_shutdown ev w with
               | (Ready _, w') => Some (true, w')
               | (Pending _, w') => shutdowns t w'
               | (Fail, _) => None
               end
  end.
End Writer.
Arguments Ready {T}. Arguments Pending {T}. Arguments Fail {T}.
