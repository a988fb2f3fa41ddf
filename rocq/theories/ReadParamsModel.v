(* Read requests (rust/lance-io/src/lib.rs) and selection of row ids by a read
   request (rust/lance-table/src/rowids.rs:449-496).
   Row offsets are u32/usize in Rust and nat here; offsets are assumed to fit
   u32, so the casts `as u32` are the identity. *)
From Coq Require Import List Arith NArith Bool Lia.
From Verif Require Import Lib RowIdsModel.
Import ListNotations.
Local Open Scope nat_scope.

(* lance-io/src/lib.rs:28-39 *)
Inductive params :=
| PRange (a b : nat)
| PFull
| PTo (e : nat)
| PFrom (s : nat)
| PIdx (l : list nat).

(* lib.rs:114-122 (index arrays are free of nulls) *)
Definition valid_given_len (p : params) (len : nat) : bool :=
  match p with
  | PIdx l => forallb (fun i => i <? len) l
  | PRange a b => (a <? len) && (b <=? len)
  | PFull => true
  | PTo e => e <=? len
  | PFrom s => s <? len
  end.

(* lib.rs:143-180; Err = None *)
Definition p_slice (p : params) (start length' : nat) : option params :=
  match p with
  | PIdx l => if length l <? start + length' then None else Some (PIdx (firstn length' (skipn start l)))
  | PRange a b => if b <? a + start + length' then None else Some (PRange (a + start) (a + start + length'))
  | PFull => Some (PRange start (start + length'))
  | PTo e => if e <? start + length' then None else Some (PRange start (start + length'))
  | PFrom s => Some (PRange (s + start) (s + start + length'))
  end.

(* a Rust range a..b as a list *)
Definition rng (a b : nat) : list nat := seq a (b - a).

(* lib.rs:186-202 *)
Definition to_offsets (p : params) : option (list nat) :=
  match p with
  | PIdx l => Some l
  | PRange a b => Some (rng a b)
  | PFull => None
  | PTo e => Some (rng 0 e)
  | PFrom _ => None
  end.

(* lib.rs:204-212 *)
Definition to_offsets_total (p : params) (total : nat) : list nat :=
  match p with
  | PIdx l => l
  | PRange a b => rng a b
  | PFull => rng 0 total
  | PTo e => rng 0 e
  | PFrom s => rng s total
  end.

Inductive outcome (A : Type) := Ok (a : A) | Err | Panic.
Arguments Ok {A}. Arguments Err {A}. Arguments Panic {A}.

(* slice().iter().collect(), a panic when the slice is out of range *)
Definition slice_ids (q : rowseq) (off len : nat) : outcome (list N) :=
  match seq_slice q off len with Some sl => Ok (slice_iter sl) | None => Panic end.

(* rowids.rs:449-496 *)
Definition select_row_ids (q : rowseq) (p : params) : outcome (list N) :=
  match p with
  | PIdx l => match sequence_opt (map (seq_get q) l) with Some r => Ok r | None => Err end
  | PRange a b => if seq_len q <? b then Err
                  else if b <? a then Panic else slice_ids q a (b - a)
  | PFull => Ok (seq_iter q)
  | PTo e => if seq_len q <? e then Err else slice_ids q 0 e
  | PFrom s => if seq_len q <? s then Panic else slice_ids q s (seq_len q - s)
  end.
