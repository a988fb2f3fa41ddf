(* Re-batching streams: rust/lance-datafusion/src/chunker.rs.
   A record batch is its list of rows (slicing a batch slices every column); a
   stream is the list of its items, each a batch or an error. *)
From Coq Require Import List Arith Bool.
From Verif Require Import Lib.
Import ListNotations.

Section Chunker.
Context {A : Type}.
Local Notation batch := (list A).
(* Ok batch / Err *)
Inductive item (X : Type) := IOk (x : X) | IErr.
Arguments IOk {X}. Arguments IErr {X}.

(* RecordBatch::slice; an out-of-range slice panics *)
Definition bslice (b : batch) (off len : nat) : option batch :=
  if off + len <=? length b then Some (firstn len (skipn off b)) else None.

(* chunker.rs:16-26 *)
Record chunker := { c_inner : list (item batch); c_buf : list batch; c_i : nat }.
(* chunker.rs:38-41 *)
Definition buffered_len (buf : list batch) (i : nat) : nat := length (concat buf) - i.
(* chunker.rs:43-52; the boolean: an error was read *)
Fixpoint fill_buffer (n : nat) (inner : list (item batch)) (buf : list batch) (i : nat) : list (item batch) * list batch * bool :=
  if buffered_len buf i <? n then
    match inner with
    | [] => ([], buf, false)
    | IErr :: t => (t, buf, true)
    | IOk b :: t => fill_buffer n t (buf ++ [b]) i
    end
  else (inner, buf, false).
(* chunker.rs:60-97: the loop; returns the collected pieces, the remaining
   buffer and i.  When only part of a batch is taken, rows_collected reaches
   output_size, so the loop ends there.  None: panic. *)
Fixpoint collect (n : nat) (buf : list batch) (i collected : nat) (acc : list batch) : option (list batch * list batch * nat) :=
  if collected <? n then
    match buf with
    | [] => Some (acc, [], i)
    | b :: t =>
        if length b =? 0 then collect n t i collected acc
        else if length b <? i then None
        else let rem := length b - i in
             let take := Nat.min rem (n - collected) in
             if take =? rem
             then match (if i =? 0 then Some b else bslice b i take) with
                  | Some p => collect n t 0 (collected + take) (acc ++ [p])
                  | None => None
                  end
             else match bslice b i take with
                  | Some p => Some (acc ++ [p], b :: t, i + take)
                  | None => None
                  end
    end
  else Some (acc, buf, i).
Inductive step := SPanic | SDone | SItem (x : item (list batch)) (c : chunker).
(* chunker.rs:54-104 *)
Definition chunker_next (n : nat) (c : chunker) : step :=
  let '(inner, buf, err) := fill_buffer n (c_inner c) (c_buf c) (c_i c) in
  if err then SItem IErr {| c_inner := inner; c_buf := buf; c_i := c_i c |}
  else match collect n buf (c_i c) 0 [] with
       | None => SPanic
       | Some ([], _, _) => SDone
       | Some (l, buf', i') => SItem (IOk l) {| c_inner := inner; c_buf := buf'; c_i := i' |}
       end.
(* chunker.rs:161-174: unfold until None; the fuel bounds the number of items *)
Fixpoint unfold_chunks (fuel n : nat) (c : chunker) : option (list (item (list batch))) :=
  match fuel with
  | O => None
  | S k => match chunker_next n c with
           | SPanic => None
           | SDone => Some []
           | SItem x c' => match unfold_chunks k n c' with Some l => Some (x :: l) | None => None end
           end
  end.
Definition chunk_stream (fuel n : nat) (s : list (item batch)) : option (list (item (list batch))) :=
  unfold_chunks fuel n {| c_inner := s; c_buf := []; c_i := 0 |}.
(* chunker.rs:176-195: each chunk is concatenated *)
Definition chunk_concat_stream (fuel n : nat) (s : list (item batch)) : option (list (item batch)) :=
  option_map (map (fun x => match x with IOk l => IOk (concat l) | IErr => IErr end)) (chunk_stream fuel n s).

(* chunker.rs:106-132.  b is the part of the batch not yet emitted, rows_remaining
   its length (both are updated together).  rows_seen > max_rows would underflow
   (None); the fuel bounds the number of pieces. *)
Fixpoint break_batch (fuel maxr seen remaining : nat) (b : batch) : option (list batch) :=
  match fuel with
  | O => None
  | S k =>
      if remaining =? 0 then Some []
      else if remaining + seen <=? maxr then Some [b]
      else if maxr <? seen then None
      else let emit := maxr - seen in
           match bslice b 0 emit, bslice b emit (length b - emit) with
           | Some p, Some b' => match break_batch k maxr 0 (remaining - emit) b' with Some l => Some (p :: l) | None => None end
           | _, _ => None
           end
  end.
(* chunker.rs:141-159; max_rows = 0 panics on the remainder *)
Fixpoint break_loop (maxr seen : nat) (s : list (item batch)) : option (list (item batch)) :=
  match s with
  | [] => Some []
  | IErr :: t => match break_loop maxr seen t with Some l => Some (IErr :: l) | None => None end
  | IOk b :: t =>
      if maxr =? 0 then None else
      match break_batch (S (length b)) maxr seen (length b) b, break_loop maxr ((seen + length b) mod maxr) t with
      | Some p, Some l => Some (map IOk p ++ l)
      | _, _ => None
      end
  end.
Definition break_stream (maxr : nat) (s : list (item batch)) : option (list (item batch)) := break_loop maxr 0 s.

(* ---- specification vocabulary ---- *)
Definition oks {X} (l : list (item X)) : list X := flat_map (fun x => match x with IOk a => [a] | IErr => [] end) l.
Definition errs {X} (l : list (item X)) : nat := length (filter (fun x => match x with IErr => true | _ => false end) l).
(* offsets at which the pieces of a list of batches end *)
Fixpoint ends (o : nat) (l : list batch) : list nat :=
  match l with [] => [] | b :: t => (o + length b) :: ends (o + length b) t end.
End Chunker.
Arguments IOk {X}. Arguments IErr {X}.
