(* Adding columns: rust/lance/src/dataset/schema_evolution.rs add_columns_impl 331-395 and
   add_columns_from_stream 397-456, over the updater of rust/lance/src/dataset/updater.rs
   (run_updater in DeletionModel) and the reads of fragment.rs (updater 1348-1399).
   Simplifications: a row of the columns read is an element of A, a row of the new columns an
   element of B; the reader yields the rows in batches of the batch size with the deleted ones
   removed (C91); a new data file is the column it holds; the futures run in order. *)
From Coq Require Import List Arith NArith Bool.
From Verif Require Import Lib AMap RowIdsModel SerdeModel ReadParamsModel DeletionModel FragReadModel ProjModel.
Import ListNotations.
Local Open Scope nat_scope.

(* a fragment: id, number of physical rows, deletion vector, the rows stored *)
Record afrag (A : Type) := { af_id : N; af_phys : nat; af_del : dv; af_row : nat -> A }.
Arguments af_id {A}. Arguments af_phys {A}. Arguments af_del {A}. Arguments af_row {A}.
(* a fragment after the update: the file pushed by finish (updater.rs:210-217), none without a batch *)
Record ufrag (B : Type) := { uf_id : N; uf_del : dv; uf_col : option (list B) }.
Arguments uf_id {B}. Arguments uf_del {B}. Arguments uf_col {B}.
(* batch size: Some b for files with row groups of b rows (updater.rs:71-82), else given *)
Record usize := { u_legacy : option nat; u_size : nat }.
Definition batch_rows (u : usize) : nat := match u_legacy u with Some b => b | None => u_size u end.

Definition deleted_at (d : dv) (o : nat) : bool := memN (N.of_nat o) (dv_items d).
(* the batches of Updater::next 103-131 *)
Definition input_batches {A} (u : usize) (f : afrag A) : list (list A) :=
  map (fun c => map (af_row f) (filter (fun o => negb (deleted_at (af_del f) o)) c)) (chunks (batch_rows u) (seq 0 (af_phys f))).
(* next to the end of the stream, update per batch, finish: the new batches must have the sizes of
   the batches read, update 165-174 *)
Definition write_back {A B} (u : usize) (f : afrag A) (new : list (list B)) : outcome (ufrag B) :=
  match run_updater (rs_new (af_del f) (omap N.of_nat (u_legacy u))) new with
  | None => Err
  | Some out => Ok {| uf_id := af_id f; uf_del := af_del f; uf_col := match new with [] => None | _ => Some out end |}
  end.
(* the mapper on each batch, schema_evolution.rs:358-378; None is an error of the mapper *)
Fixpoint map_batches {A B} (m : list A -> option (list B)) (bs : list (list A)) : outcome (list (list B)) :=
  match bs with
  | [] => Ok []
  | b :: t => match m b with
              | Some x => if length x =? length b then obnd (map_batches m t) (fun r => Ok (x :: r)) else Err
              | None => Err
              end
  end.
Definition add_to_fragment {A B} (u : usize) (m : list A -> option (list B)) (f : afrag A) : outcome (ufrag B) :=
  obnd (map_batches m (input_batches u f)) (write_back u f).
(* add_columns_impl 331-395 without a checkpoint *)
Fixpoint add_columns_impl {A B} (u : usize) (m : list A -> option (list B)) (fs : list (afrag A)) : outcome (list (ufrag B)) :=
  match fs with
  | [] => Ok []
  | f :: t => obnd (add_to_fragment u m f) (fun g => obnd (add_columns_impl u m t) (fun r => Ok (g :: r)))
  end.

(* 411-436: the rows of the stream for one batch; last_seen_batch is the head of [st] *)
Fixpoint fill {B} (n : nat) (st : list (list B)) : option (list (list B) * list (list B)) :=
  if n =? 0 then Some ([], st) else
  match st with
  | [] => None
  | b :: t => if n <? length b then Some ([firstn n b], skipn n b :: t)
              else omap (fun '(x, r) => (b :: x, r)) (fill (n - length b) t)
  end.
(* 405-442: all batches of a fragment; batches[0] panics if there is none *)
Fixpoint fill_all {A B} (bs : list (list A)) (st : list (list B)) : outcome (list (list B) * list (list B)) :=
  match bs with
  | [] => Ok ([], st)
  | b :: t => match fill (length b) st with
              | None => Err
              | Some ([], _) => Panic
              | Some (x, st') => obnd (fill_all t st') (fun '(r, st'') => Ok (concat x :: r, st''))
              end
  end.
Fixpoint stream_fragments {A B} (u : usize) (fs : list (afrag A)) (st : list (list B)) : outcome (list (ufrag B) * list (list B)) :=
  match fs with
  | [] => Ok ([], st)
  | f :: t => obnd (fill_all (input_batches u f) st) (fun '(new, st') =>
              obnd (write_back u f new) (fun g =>
              obnd (stream_fragments u t st') (fun '(r, st'') => Ok (g :: r, st''))))
  end.
(* add_columns_from_stream 397-456 *)
Definition add_columns_from_stream {A B} (u : usize) (fs : list (afrag A)) (st : list (list B)) : outcome (list (ufrag B)) :=
  obnd (stream_fragments u fs st) (fun '(r, rest) => match rest with [] => Ok r | _ => Err end).

(* ---- with a checkpoint, 345-391: results of batches and of fragments, by fragment id ---- *)
Record cache (B : Type) := { ca_batches : list ((N * nat) * list B); ca_frags : list (N * ufrag B) }.
Arguments ca_batches {B}. Arguments ca_frags {B}.
Definition get_batch {B} (c : cache B) (i : N) (k : nat) : option (list B) :=
  omap snd (find (fun e => (fst (fst e) =? i)%N && (snd (fst e) =? k)) (ca_batches c)).
Definition get_fragment {B} (c : cache B) (i : N) : option (ufrag B) := omap snd (find (fun e => (fst e =? i)%N) (ca_frags c)).
Definition insert_batch {B} (c : cache B) (i : N) (k : nat) (b : list B) : cache B :=
  {| ca_batches := ca_batches c ++ [((i, k), b)]; ca_frags := ca_frags c |}.
(* python/python/lance/udf.py:146-158: the batches of the fragment are dropped *)
Definition insert_fragment {B} (c : cache B) (g : ufrag B) : cache B :=
  {| ca_batches := filter (fun e => negb (fst (fst e) =? uf_id g)%N) (ca_batches c); ca_frags := ca_frags c ++ [(uf_id g, g)] |}.
(* the loop over the batches of a fragment; [fuel] mapper calls are made before the process stops *)
Inductive ran (T : Type) := Done (x : T) | Failed | Stopped.
Arguments Done {T}. Arguments Failed {T}. Arguments Stopped {T}.
Fixpoint cached_batches {A B} (m : list A -> option (list B)) (i : N) (k : nat) (bs : list (list A)) (fuel : nat) (c : cache B)
  : ran (list (list B)) * nat * cache B :=
  match bs with
  | [] => (Done [], fuel, c)
  | b :: t =>
      match get_batch c i k with
      | Some x => if length x =? length b
                  then match cached_batches m i (S k) t fuel c with (Done r, n, c') => (Done (x :: r), n, c') | e => e end
                  else (Failed, fuel, c)
      | None => match fuel with
                | 0 => (Stopped, 0, c)
                | S fuel' => match m b with
                             | None => (Failed, fuel', c)
                             | Some x => let c1 := insert_batch c i k x in
                                         if length x =? length b
                                         then match cached_batches m i (S k) t fuel' c1 with (Done r, n, c') => (Done (x :: r), n, c') | e => e end
                                         else (Failed, fuel', c1)
                             end
                end
      end
  end.
Fixpoint cached_impl {A B} (u : usize) (m : list A -> option (list B)) (fs : list (afrag A)) (fuel : nat) (c : cache B)
  : ran (list (ufrag B)) * nat * cache B :=
  match fs with
  | [] => (Done [], fuel, c)
  | f :: t =>
      let '(one, n, c1) :=
        match get_fragment c (af_id f) with
        | Some g => (Done g, fuel, c)
        | None => match cached_batches m (af_id f) 0 (input_batches u f) fuel c with
                  | (Done new, n, c') => match write_back u f new with
                                         | Ok g => (Done g, n, insert_fragment c' g)
                                         | _ => (Failed, n, c')
                                         end
                  | (Failed, n, c') => (Failed, n, c')
                  | (Stopped, n, c') => (Stopped, n, c')
                  end
        end in
      match one with
      | Done g => match cached_impl u m t n c1 with (Done r, n', c2) => (Done (g :: r), n', c2) | e => e end
      | Failed => (Failed, n, c1)
      | Stopped => (Stopped, n, c1)
      end
  end.
