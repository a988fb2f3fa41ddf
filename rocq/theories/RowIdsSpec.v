(* Statement vocabulary for the row-id properties C01-C08; independent of the
   model's algorithms. *)
From Coq Require Import List Arith NArith Bool Lia.
From Verif Require Import Lib RowIdsModel.
Import ListNotations.
Local Open Scope nat_scope.

(* non-decreasing *)
Fixpoint ninc (l : list N) : Prop :=
  match l with
  | [] => True
  | x :: t => (forall y, In y t -> (x <= y)%N) /\ ninc t
  end.

(* what a correct search for v in the sorted list l reports *)
Definition bsearch_correct (l : list N) (v : N) (r : bs_result) : Prop :=
  match r with
  | BOk i => nth_error l i = Some v
  | BErr i => i <= length l /\
              (forall x, In x (firstn i l) -> (x < v)%N) /\
              (forall x, In x (skipn i l) -> (v < x)%N)
  end.

(* the list without the listed ids *)
Definition without_ids (ids l : list N) : list N := filter (fun v => negb (memN v ids)) l.

(* the list without the elements at the listed positions *)
Definition without_positions (ps : list nat) (l : list N) : list N :=
  map snd (filter (fun p => negb (memb (fst p) ps)) (combine (seq 0 (length l)) l)).

(* i is the first index at which v occurs in l *)
Definition first_index (l : list N) (v : N) (i : nat) : Prop :=
  nth_error l i = Some v /\ forall j, j < i -> nth_error l j <> Some v.

(* compact arrays: offsets fit their width, values are u64, and the base is one
   of the values *)
Definition ea_wf (a : enc_arr) : Prop :=
  match a with
  | EU16 b o => Forall (fun x => (x <= u16_max)%N) o /\ Forall (fun x => (b + x < two64)%N) o /\
                (o <> [] -> In 0%N o)
  | EU32 b o => Forall (fun x => (x <= u32_max)%N) o /\ Forall (fun x => (b + x < two64)%N) o /\
                (o <> [] -> In 0%N o)
  | EU64 v => Forall (fun x => (x < two64)%N) v
  end.

(* bitmaps: exactly the bytes needed, and no bit set past the end *)
Definition bm_wf (b : bitmap) : Prop :=
  length (bm_data b) = (bm_len b + 7) / 8 /\
  Forall (fun x => (x < 256)%N) (bm_data b) /\
  (forall i, bm_len b <= i -> bm_get b i = false).

(* u64::MAX is the reserved tombstone address (lance-core address.rs:14), never a
   row id *)
Definition valid_ids (l : list N) : Prop := Forall (fun x => (x < u64_max)%N) l.

(* segments as described at segment.rs:11-33: holes and sorted arrays are sorted
   and free of duplicates, bitmaps cover exactly the range, arrays are not
   empty *)
Definition seg_wf (s : segment) : Prop :=
  match s with
  | Range a b => (a <= b < two64)%N
  | Holes a b h => (a < b < two64)%N /\ ea_wf h /\ sinc (ea_iter h) /\
                   Forall (fun x => (a <= x < b)%N) (ea_iter h)
  | BMap a b bm => (a < b < two64)%N /\ bm_wf bm /\ bm_len bm = N.to_nat (b - a)
  | Sorted arr => ea_wf arr /\ sinc (ea_iter arr) /\ ea_iter arr <> [] /\ valid_ids (ea_iter arr)
  | Arr arr => ea_wf arr /\ ea_iter arr <> [] /\ valid_ids (ea_iter arr)
  end.

Definition seq_wf (q : rowseq) : Prop := Forall seg_wf q.

(* C02: the compact array [a] behaves like the list [l] *)
Definition array_like (l : list N) (a : enc_arr) : Prop :=
  ea_len a = length l /\
  ea_iter a = l /\
  (forall i, ea_get a i = nth_error l i) /\
  ea_first a = hd_error l /\
  (ea_last a = match l with [] => None | _ => Some (last l 0%N) end) /\
  (forall m, ea_min a = Some m <-> (In m l /\ forall y, In y l -> (m <= y)%N)) /\
  (forall m, ea_max a = Some m <-> (In m l /\ forall y, In y l -> (y <= m)%N)) /\
  (ninc l -> forall v, bsearch_correct l v (ea_bsearch a v)) /\
  (forall off len, off + len <= length l ->
     exists b, ea_slice a off len = Some b /\ ea_iter b = firstn len (skipn off l)).
