(* Blob columns: rust/lance-encoding/src/encodings/logical/blob.rs (encoder and
   decoder), OutOfLineBuffers of rust/lance-encoding/src/encoder.rs, the part of
   rust/lance-file/src/v2/writer.rs that writes the out of line buffers, the child
   loops of rust/lance-encoding/src/encodings/logical/struct.rs that drive the page
   decoders, and rust/lance/src/dataset/blob.rs (BlobFile).
   Byte positions, sizes and row counts are natural numbers (u64 overflow is not
   modelled).  A future that is awaited is the value it resolves to; Panic is a
   Rust panic and Failed an Err (the result type of SchedModel). *)
From Coq Require Import List Arith NArith Bool.
From Verif Require Import Lib SchedModel BitsModel.
Import ListNotations.

Definition rbind {A C} (x : res A) (f : A -> res C) : res C :=
  match x with Done a => f a | Failed => Failed | Panic => Panic end.

(* ---- writing ---- *)
(* encoder.rs:307-311 OutOfLineBuffers *)
Record outofline (B : Type) := { oo_position : nat; oo_alignment : N; oo_buffers : list (list B) }.
Arguments oo_position {B}. Arguments oo_alignment {B}. Arguments oo_buffers {B}. Arguments Build_outofline {B}.
Definition pad (n : nat) (align : N) : nat := N.to_nat (pad_bytes_to (N.of_nat n) align).
(* encoder.rs:314-320 *)
Definition oo_new {B} (base_position : nat) (align : N) : outofline B := Build_outofline base_position align [].
(* encoder.rs:322-328: the position of the buffer and the new state *)
Definition add_buffer {B} (o : outofline B) (buffer : list B) : nat * outofline B :=
  (oo_position o,
   Build_outofline (oo_position o + length buffer + pad (length buffer) (oo_alignment o)) (oo_alignment o) (oo_buffers o ++ [buffer])).

(* an arrow LargeBinaryArray: the offsets (one more than the values), the data and
   the validity, if any; a slice of an array keeps the whole data buffer *)
Record binarray (B : Type) := { ba_offsets : list nat; ba_data : list B; ba_nulls : option (list bool) }.
Arguments ba_offsets {B}. Arguments ba_data {B}. Arguments ba_nulls {B}. Arguments Build_binarray {B}.
(* [T]::windows(2) *)
Fixpoint windows2 (l : list nat) : list (nat * nat) :=
  match l with a :: ((b :: _) as t) => (a, b) :: windows2 t | _ => [] end.
(* blob.rs:316-319: nulls, or all valid *)
Definition nulls_of {B} (a : binarray B) : list bool :=
  match ba_nulls a with Some v => v | None => repeat true (length (windows2 (ba_offsets a))) end.
(* blob.rs:320-343: the loop over the windows zipped with the validity; a
   description is (position, size).  slice_with_length panics out of bounds and
   `end - start` underflows for offsets that go down; arrow guarantees neither
   happens, so they are left out. *)
Definition write_one {B} (data : list B) (w : nat * nat) (is_valid : bool) (o : outofline B) : (nat * nat) * outofline B :=
  if is_valid then
    let size := snd w - fst w in
    if 0 <? size then
      let '(position, o') := add_buffer o (firstn size (skipn (fst w) data)) in ((position, size), o')
    else ((0, 0), o)
  else ((1, 0), o).
Fixpoint write_loop {B} (data : list B) (l : list ((nat * nat) * bool)) (o : outofline B) : list (nat * nat) * outofline B :=
  match l with
  | [] => ([], o)
  | (w, v) :: t => let '(d, o1) := write_one data w v o in
                   let '(ds, o2) := write_loop data t o1 in (d :: ds, o2)
  end.
(* blob.rs:304-352 write_bins *)
Definition write_bins {B} (a : binarray B) (o : outofline B) : list (nat * nat) * outofline B :=
  write_loop (ba_data a) (combine (windows2 (ba_offsets a)) (nulls_of a)) o.

(* lance-file/src/v2/writer.rs: PAGE_BUFFER_ALIGNMENT (line 40) *)
Definition PAGE_BUFFER_ALIGNMENT : N := 64.
(* writer.rs:167-172 do_write_buffer, on the bytes written so far; z is the byte of
   PAD_BUFFER *)
Definition do_write_buffer {B} (z : B) (file buf : list B) : list B :=
  file ++ buf ++ repeat z (pad (length buf) PAGE_BUFFER_ALIGNMENT).
(* writer.rs:309-341 encode_batch, over the blob columns of the batch (in the order
   of the schema); the other columns add no external buffer *)
Fixpoint encode_batch {B} (cols : list (binarray B)) (o : outofline B) : list (list (nat * nat)) * outofline B :=
  match cols with
  | [] => ([], o)
  | c :: t => let '(d, o1) := write_bins c o in
              let '(ds, o2) := encode_batch t o1 in (d :: ds, o2)
  end.
(* writer.rs:347-391 write_batch: the external buffers go to the file before the
   pages of the batch (pages: whatever bytes write_pages writes) *)
Definition write_batch {B} (z : B) (file : list B) (cols : list (binarray B)) (pages : list B) : list (list (nat * nat)) * list B :=
  let '(ds, o) := encode_batch cols (oo_new (length file) PAGE_BUFFER_ALIGNMENT) in
  (ds, fold_left (do_write_buffer z) (oo_buffers o) file ++ pages).
(* a file written by several calls; the description encoder collects the
   descriptions of each column (one list per column, ncols of them) *)
Fixpoint write_file {B} (z : B) (ncols : nat) (file : list B) (batches : list (list (binarray B) * list B)) : list (list (nat * nat)) * list B :=
  match batches with
  | [] => (repeat [] ncols, file)
  | (cols, pages) :: t =>
      let '(ds, file1) := write_batch z file cols pages in
      let '(rest, file2) := write_file z ncols file1 t in
      (map (fun p => fst p ++ snd p) (combine ds rest), file2)
  end.

(* ---- reading ---- *)
(* blob.rs:129-140 BlobFieldDecoder, its descriptions loaded.  bp_validity: the
   queue of the validity bitmaps *)
Record bpage (B : Type) := { bp_descs : list (nat * nat); bp_loaded : list (list B); bp_validity : list (list bool);
                             bp_rows_loaded : nat; bp_rows_drained : nat }.
Arguments bp_descs {B}. Arguments bp_loaded {B}. Arguments bp_validity {B}. Arguments bp_rows_loaded {B}. Arguments bp_rows_drained {B}.
Arguments Build_bpage {B}.
(* blob.rs:81-92: as scheduled *)
Definition new_page {B} (descs : list (nat * nat)) : bpage B := Build_bpage descs [] [] 0 0.
Definition num_rows {B} (p : bpage B) : nat := length (bp_descs p).
(* blob.rs:143-165 drain_validity, without the final null_count test: the queue is
   used up from the front; front_mut().unwrap() panics on an empty queue *)
Fixpoint drain_validity (q : list (list bool)) (remaining : nat) : res (list bool * list (list bool)) :=
  if remaining =? 0 then Done ([], q) else
  match q with
  | [] => Panic
  | next :: t => if remaining <? length next then Done (firstn remaining next, skipn remaining next :: t)
                 else rbind (drain_validity t (remaining - length next)) (fun r => Done (next ++ fst r, snd r))
  end.
Section Io.
Context {B : Type}.
(* EncodingsIo::submit_request *)
Variable io : list range -> res (list (list B)).
(* blob.rs:183-217 wait_for_loaded; `end - start` underflows when more rows are
   loaded than needed *)
Definition page_wait (p : bpage B) (loaded_need : nat) : res (bpage B) :=
  let start := bp_rows_loaded p in
  let stop := Nat.min (loaded_need + 1) (num_rows p) in
  if stop <? start then Panic else
  let ds := firstn (stop - start) (skipn start (bp_descs p)) in
  rbind (io (map (fun d => (fst d, fst d + snd d)) ds)) (fun bytes =>
    Done (Build_bpage (bp_descs p) (bp_loaded p ++ bytes) (bp_validity p ++ [map (fun d => negb (fst d =? 1) || negb (snd d =? 0)) ds])
                      stop (bp_rows_drained p))).
End Io.
(* blob.rs:231-239 drain: the bytes and the validity of the decode task.
   VecDeque::drain panics when there are fewer values *)
Definition page_drain {B} (p : bpage B) (n : nat) : res ((list (list B) * option (list bool)) * bpage B) :=
  if length (bp_loaded p) <? n then Panic else
  rbind (drain_validity (bp_validity p) n) (fun v =>
    Done ((firstn n (bp_loaded p), if forallb (fun b => b) (fst v) then None else Some (fst v)),
          Build_bpage (bp_descs p) (skipn n (bp_loaded p)) (snd v) (bp_rows_loaded p) (bp_rows_drained p + n))).
(* blob.rs:257-279 BlobArrayDecodeTask::decode *)
Fixpoint offsets_from {B} (state : nat) (bytes : list (list B)) : list nat :=
  match bytes with [] => [state] | b :: t => state :: offsets_from (state + length b) t end.
Definition decode_task {B} (t : list (list B) * option (list bool)) : binarray B :=
  Build_binarray (offsets_from 0 (fst t)) (concat (fst t)) (snd t).

(* struct.rs:410-432 ChildState of a blob column *)
Record child (B : Type) := { ch_scheduled : list (bpage B); ch_rows_drained : nat; ch_rows_popped : nat }.
Arguments ch_scheduled {B}. Arguments ch_rows_drained {B}. Arguments ch_rows_popped {B}. Arguments Build_child {B}.
Definition rows_left {B} (p : bpage B) : nat := num_rows p - bp_rows_drained p.
Section Child.
Context {B : Type}.
Variable io : list range -> res (list (list B)).
(* struct.rs:483-517: the loop over the scheduled pages; `current_need -=
   fully_loaded` and `rows_in_page - 1` underflow *)
Fixpoint wait_pages (loaded_need fully_loaded : nat) (ps : list (bpage B)) : res (list (bpage B)) :=
  match ps with
  | [] => Done []
  | p :: t =>
      rbind (if 0 <? num_rows p - bp_rows_loaded p then
               if (loaded_need <? fully_loaded) || (num_rows p =? 0) then Panic else
               rbind (page_wait io p (Nat.min (num_rows p - 1) (loaded_need - fully_loaded)))
                     (fun p' => Done (p', fully_loaded + bp_rows_loaded p'))
             else Done (p, fully_loaded + num_rows p)) (fun r =>
      if loaded_need <? snd r then Done (fst r :: t)
      else rbind (wait_pages loaded_need (snd r) t) (fun t' => Done (fst r :: t')))
  end.
(* struct.rs:475-526 wait_for_loaded *)
Definition child_wait (c : child B) (loaded_need : nat) : res (child B) :=
  rbind (wait_pages loaded_need (ch_rows_popped c) (ch_scheduled c)) (fun ps =>
    Done (Build_child ps (ch_rows_drained c) (ch_rows_popped c))).
(* struct.rs:542-554: the loop of drain; the tasks, the pages that remain and the
   rows popped.  front_mut().unwrap() panics without a page.  A page drained
   completely is popped. *)
Fixpoint drain_pages (remaining : nat) (ps : list (bpage B)) (popped : nat) : res (list (binarray B) * list (bpage B) * nat) :=
  if remaining =? 0 then Done ([], ps, popped) else
  match ps with
  | [] => Panic
  | p :: t =>
      let rows_to_take := Nat.min remaining (rows_left p) in
      rbind (page_drain p rows_to_take) (fun r =>
        let '(task, p') := r in
        if rows_left p' =? 0 then
          rbind (drain_pages (remaining - rows_to_take) t (popped + num_rows p')) (fun x => let '(ts, ps', po) := x in Done (decode_task task :: ts, ps', po))
        else Done ([decode_task task], p' :: t, popped))
  end.
(* struct.rs:528-559 drain *)
Definition child_drain (c : child B) (n : nat) : res (list (binarray B) * child B) :=
  rbind (drain_pages n (ch_scheduled c) (ch_rows_popped c)) (fun x =>
    let '(ts, ps, po) := x in Done (ts, Build_child ps (ch_rows_drained c + n) po)).
(* decoder.rs:1432-1475 next_batch_task for each batch size, all pages scheduled:
   wait for rows_drained + to_take - 1, drain, decode the tasks (the batch is the
   concatenation of the tasks' arrays, struct.rs:442-456) *)
Fixpoint read_batches (c : child B) (sizes : list nat) : res (list (list (binarray B))) :=
  match sizes with
  | [] => Done []
  | n :: t => rbind (child_wait c (ch_rows_drained c + n - 1)) (fun c1 =>
              rbind (child_drain c1 n) (fun r =>
              rbind (read_batches (snd r) t) (fun rest => Done (fst r :: rest))))
  end.
Definition read_column (pages : list (list (nat * nat))) (sizes : list nat) : res (list (list (binarray B))) :=
  read_batches (Build_child (map new_page pages) 0 0) sizes.
End Child.
(* lance-encoding/src/lib.rs:83-105 BufferScheduler: Bytes::slice of each range *)
Definition buffer_io {B} (data : list B) (ranges : list range) : res (list (list B)) :=
  match sequence_opt (map (fun r : range => if (fst r <=? snd r) && (snd r <=? length data) then Some (firstn (snd r - fst r) (skipn (fst r) data)) else None) ranges) with
  | Some l => Done l
  | None => Panic
  end.
(* lance-file/src/v2/io.rs:11-19 LanceEncodingsIo: the request goes to the
   FileScheduler *)
Definition file_io {B} (data : list B) (block_size : nat) (ranges : list range) : res (list (list B)) := submit_request data block_size ranges.

(* ---- BlobFile ---- *)
(* dataset/blob.rs:33-37; the reader of an open file is left out *)
Inductive rstate := Uninitialized (cursor : nat) | Open (cursor : nat) | Closed.
(* dataset/blob.rs:41-47: position and size in the data file *)
Record blobfile := { bf_state : rstate; bf_position : nat; bf_size : nat }.
(* dataset/blob.rs:53-69 *)
Definition bf_new (position size : nat) : blobfile := {| bf_state := Uninitialized 0; bf_position := position; bf_size := size |}.
Definition with_state (f : blobfile) (s : rstate) : blobfile := {| bf_state := s; bf_position := bf_position f; bf_size := bf_size f |}.
(* lance-io/src/local.rs:150-169 get_range of a local file: Range::len is 0 when
   start is past end, and read_exact_at of no bytes succeeds anywhere *)
Definition get_range {B} (data : list B) (start stop : nat) : res (list B) :=
  if stop <=? start then Done [] else if stop <=? length data then Done (firstn (stop - start) (skipn start data)) else Failed.
Section File.
Context {B : Type}.
(* the data file, and whether arithmetic is checked (a debug build) *)
Variables (data : list B) (debug : bool).
(* dataset/blob.rs:83-109 do_with_reader; opening the data file succeeds *)
Definition do_with_reader {T} (f : blobfile) (func : nat -> res (nat * T)) : res T * blobfile :=
  match bf_state f with
  | Uninitialized cursor | Open cursor =>
      match func cursor with
      | Done (c', x) => (Done x, with_state f (Open c'))
      | Failed => (Failed, with_state f (Open cursor))
      | Panic => (Panic, with_state f (Open cursor))
      end
  | Closed => (Failed, f)
  end.
(* dataset/blob.rs:116-125 *)
Definition bf_read (f : blobfile) : res (list B) * blobfile :=
  do_with_reader f (fun cursor =>
    let start := bf_position f + cursor in
    let stop := bf_position f + bf_size f in
    rbind (get_range data start stop) (fun x => Done (stop, x))).
(* dataset/blob.rs:131-142; `size - cursor` underflows when the cursor is past the
   end: a panic when arithmetic is checked, otherwise a huge number (2^64 less the
   distance, taken to exceed len) *)
Definition bf_read_up_to (f : blobfile) (len : nat) : res (list B) * blobfile :=
  do_with_reader f (fun cursor =>
    let start := bf_position f + cursor in
    if (bf_size f <? cursor) && debug then Panic else
    let read_size := if bf_size f <? cursor then len else Nat.min len (bf_size f - cursor) in
    let stop := start + read_size in
    rbind (get_range data start stop) (fun x => Done (stop - bf_position f, x))).
(* dataset/blob.rs:145-160 *)
Definition bf_seek (f : blobfile) (c : nat) : res unit * blobfile :=
  match bf_state f with
  | Open _ => (Done tt, with_state f (Open c))
  | Closed => (Failed, f)
  | Uninitialized _ => (Done tt, with_state f (Uninitialized c))
  end.
(* dataset/blob.rs:163-173 *)
Definition bf_tell (f : blobfile) : res nat :=
  match bf_state f with Open c | Uninitialized c => Done c | Closed => Failed end.
(* dataset/blob.rs:72-81 *)
Definition bf_close (f : blobfile) : blobfile := with_state f Closed.
Definition bf_is_closed (f : blobfile) : bool := match bf_state f with Closed => true | _ => false end.

(* python/python/lance/blob.py:52-106: the calls of a user.  seek: SEEK_SET,
   SEEK_CUR and SEEK_END with a non-negative offset end in inner.seek; read(n) and
   readinto go to read_up_to (python/src/dataset/blob.rs read_into), readall and
   read(-1) to read *)
Inductive op := ReadAll | Read (n : nat) | SeekSet (c : nat) | SeekCur (c : nat) | SeekEnd | Tell | Close.
Inductive out := OBytes (l : list B) | OPos (n : nat) | OUnit | OErr | OPanic.
Definition of_bytes (r : res (list B)) : out := match r with Done l => OBytes l | Failed => OErr | Panic => OPanic end.
Definition of_pos (r : res nat) : out := match r with Done l => OPos l | Failed => OErr | Panic => OPanic end.
(* blob.py:74-84: seek, then return tell *)
Definition py_seek (f : blobfile) (c : res nat) : out * blobfile :=
  match c with
  | Done c => let '(r, f') := bf_seek f c in (match r with Done _ => of_pos (bf_tell f') | _ => OErr end, f')
  | _ => (OErr, f)
  end.
Definition exec (f : blobfile) (o : op) : out * blobfile :=
  match o with
  | ReadAll => let '(r, f') := bf_read f in (of_bytes r, f')
  | Read n => let '(r, f') := bf_read_up_to f n in (of_bytes r, f')
  | SeekSet c => py_seek f (Done c)
  | SeekCur c => py_seek f (rbind (bf_tell f) (fun t => Done (t + c)))
  | SeekEnd => py_seek f (Done (bf_size f))
  | Tell => (of_pos (bf_tell f), f)
  | Close => (OUnit, bf_close f)
  end.
Fixpoint execs (f : blobfile) (l : list op) : list out :=
  match l with [] => [] | o :: t => let '(r, f') := exec f o in r :: execs f' t end.
End File.

(* dataset/blob.rs:178-226 take_blobs, after the take: the row addresses and the
   descriptions of the rows, in order; files: the data file of the column in each
   fragment (frag.data_file_for_field(..).unwrap() panics without one).  The
   children of a description are never null (write_bins), so filter_map keeps every
   row. *)
Fixpoint take_blobs {B} (files : N -> option (list B)) (rows : list (N * (nat * nat))) : res (list (list B * blobfile)) :=
  match rows with
  | [] => Done []
  | (addr, d) :: t => match files (N.div addr (2 ^ 32)) with
                      | Some data => rbind (take_blobs files t) (fun r => Done ((data, bf_new (fst d) (snd d)) :: r))
                      | None => Panic
                      end
  end.
