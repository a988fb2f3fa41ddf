(* Serialized form of row-id sequences: rust/lance-table/src/rowids/serde.rs and
   protos/rowids.proto.  Messages are records; prost's wire encoding of a message
   is not modelled (trusted to round-trip). *)
From Coq Require Import List Arith NArith Bool Lia.
From Verif Require Import Lib RowIdsModel.
Import ListNotations.
Local Open Scope nat_scope.

(* uN::to_le_bytes with n bytes; uN::from_le_bytes *)
Fixpoint le_bytes (n : nat) (v : N) : list N :=
  match n with O => [] | S k => (v mod 256)%N :: le_bytes k (v / 256)%N end.
Fixpoint of_le_bytes (l : list N) : N :=
  match l with [] => 0%N | b :: t => (b + 256 * of_le_bytes t)%N end.

(* protos/rowids.proto: EncodedU64Array, U64Segment; oneofs are options *)
Inductive pb_arr :=
| PU16 (base : N) (offsets : list N)   (* offsets: bytes *)
| PU32 (base : N) (offsets : list N)
| PU64 (values : list N).
Inductive pb_seg :=
| PSRange (a b : N)
| PSHoles (a b : N) (holes : option (option pb_arr))
| PSBitmap (a b : N) (bitmap : list N)
| PSSorted (arr : option pb_arr)
| PSArr (arr : option pb_arr).

(* slice::chunks_exact(n): fuel is the number of bytes *)
Fixpoint chunks_exact (fuel n : nat) (l : list N) : list (list N) :=
  match fuel with
  | O => []
  | S f => if length l <? n then [] else firstn n l :: chunks_exact f n (skipn n l)
  end.

(* serde.rs:61-109; the assertions on the byte counts panic = None *)
Definition ea_decode (p : option pb_arr) : option enc_arr :=
  match p with
  | None => None
  | Some (PU16 b o) => if length o mod 2 =? 0 then Some (EU16 b (map of_le_bytes (chunks_exact (length o) 2 o))) else None
  | Some (PU32 b o) => if length o mod 4 =? 0 then Some (EU32 b (map of_le_bytes (chunks_exact (length o) 4 o))) else None
  | Some (PU64 v) => if length v mod 8 =? 0 then Some (EU64 (map of_le_bytes (chunks_exact (length v) 8 v))) else None
  end.

(* serde.rs:24-58; `end - start` underflow panics = None *)
Definition seg_decode (p : option pb_seg) : option segment :=
  match p with
  | None => None
  | Some (PSRange a b) => Some (Range a b)
  | Some (PSHoles a b h) => obind h (fun h' => omap (Holes a b) (ea_decode h'))
  | Some (PSBitmap a b d) => if (b <? a)%N then None
                             else Some (BMap a b {| bm_data := d; bm_len := N.to_nat (b - a) |})
  | Some (PSSorted x) => omap Sorted (ea_decode x)
  | Some (PSArr x) => omap Arr (ea_decode x)
  end.

(* serde.rs:12-21 *)
Definition seq_decode (l : list (option pb_seg)) : option rowseq := sequence_opt (map seg_decode l).

(* serde.rs:155-193 *)
Definition ea_encode (a : enc_arr) : option pb_arr :=
  match a with
  | EU16 b o => Some (PU16 b (flat_map (le_bytes 2) o))
  | EU32 b o => Some (PU32 b (flat_map (le_bytes 4) o))
  | EU64 v => Some (PU64 (flat_map (le_bytes 8) v))
  end.

(* serde.rs:119-153 *)
Definition seg_encode (s : segment) : option pb_seg :=
  match s with
  | Range a b => Some (PSRange a b)
  | Holes a b h => Some (PSHoles a b (Some (ea_encode h)))
  | BMap a b bm => Some (PSBitmap a b (bm_data bm))
  | Sorted x => Some (PSSorted (ea_encode x))
  | Arr x => Some (PSArr (ea_encode x))
  end.

(* serde.rs:111-117 *)
Definition seq_encode (q : rowseq) : list (option pb_seg) := map seg_encode q.

(* ------------------------------------------------------------------ *)
(** * rowids/index.rs *)

Definition two32 : N := 4294967296.

(* lance-core address.rs: first_row (24-26), new_from_parts (20-22) *)
Definition addr_of (frag off : N) : N := (frag * two32 + off)%N.

Record piece := { pc_lo : N; pc_hi : N; pc_ids : segment; pc_addr : segment }.

(* index.rs:77-95; None = a panic in range() *)
Fixpoint decompose (start : N) (q : rowseq) : option (list piece) :=
  match q with
  | [] => Some []
  | s :: qs =>
      let len := N.of_nat (seg_len s) in
      let addr := Range start (start + len) in
      match seg_range s with
      | None => None
      | Some None => decompose (start + len) qs
      | Some (Some (lo, hi)) =>
          omap (cons {| pc_lo := lo; pc_hi := hi; pc_ids := s; pc_addr := addr |}) (decompose (start + len) qs)
      end
  end.

(* sort_by_key (stable) *)
Fixpoint insert_piece (p : piece) (l : list piece) : list piece :=
  match l with
  | [] => [p]
  | q :: t => if (pc_lo p <=? pc_lo q)%N then p :: l else q :: insert_piece p t
  end.
Definition sort_pieces (l : list piece) : list piece := fold_right insert_piece [] l.

(* pieces.windows(2).any(..) *)
Fixpoint overlapping (l : list piece) : bool :=
  match l with
  | p :: ((q :: _) as t) => (pc_lo q <=? pc_hi p)%N || overlapping t
  | _ => false
  end.

Inductive idx_result := IOk (l : list piece) | IOverlap | IPanic.

(* index.rs:32-50 *)
Definition index_new (frags : list (N * rowseq)) : idx_result :=
  match sequence_opt (map (fun '(f, q) => decompose (addr_of f 0) q) frags) with
  | None => IPanic
  | Some pss => let ps := sort_pieces (concat pss) in
                if overlapping ps then IOverlap else IOk ps
  end.

(* index.rs:55-60; RangeInclusiveMap::get by its contract on disjoint ranges:
   the value of the range containing the key *)
Definition index_get (ps : list piece) (id : N) : option N :=
  match find (fun p => (pc_lo p <=? id)%N && (id <=? pc_hi p)%N) ps with
  | None => None
  | Some p => match seg_position (pc_ids p) id with
              | None => None
              | Some pos => seg_get (pc_addr p) pos
              end
  end.
