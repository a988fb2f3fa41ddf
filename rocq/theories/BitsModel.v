(* Alignment and bit-width helpers: rust/lance-core/src/utils/bit.rs.
   usize and u64 are the numbers below 2^64; subtraction that would go below
   zero is a panic (debug) and is reported as None. *)
From Coq Require Import List NArith Bool.
Import ListNotations.
Local Open Scope N_scope.

(* bit.rs:4-6; n - 1 underflows for 0 *)
Definition is_pwr_two (n : N) : option bool := if n =? 0 then None else Some (N.land n (n - 1) =? 0).
(* bit.rs:8-11 pad_bytes, 13-16 pad_bytes_to, 18-21 pad_bytes_u64: the same
   expression for usize const, usize and u64 const alignments; n & (align - 1)
   is below align, so the inner subtraction does not underflow *)
Definition pad_bytes_to (n align : N) : N := N.land (align - N.land n (align - 1)) (align - 1).

(* bit.rs:24-33, the 256 entries of the source *)
Definition LOG_TABLE_256 : list N :=
  [0; 1; 2; 2; 3; 3; 3; 3; 4; 4; 4; 4; 4; 4; 4; 4; 5; 5; 5; 5; 5; 5; 5; 5; 5; 5; 5; 5; 5; 5; 5; 5;
   6; 6; 6; 6; 6; 6; 6; 6; 6; 6; 6; 6; 6; 6; 6; 6; 6; 6; 6; 6; 6; 6; 6; 6; 6; 6; 6; 6; 6; 6; 6; 6;
   7; 7; 7; 7; 7; 7; 7; 7; 7; 7; 7; 7; 7; 7; 7; 7; 7; 7; 7; 7; 7; 7; 7; 7; 7; 7; 7; 7; 7; 7; 7; 7;
   7; 7; 7; 7; 7; 7; 7; 7; 7; 7; 7; 7; 7; 7; 7; 7; 7; 7; 7; 7; 7; 7; 7; 7; 7; 7; 7; 7; 7; 7; 7; 7;
   8; 8; 8; 8; 8; 8; 8; 8; 8; 8; 8; 8; 8; 8; 8; 8; 8; 8; 8; 8; 8; 8; 8; 8; 8; 8; 8; 8; 8; 8; 8; 8;
   8; 8; 8; 8; 8; 8; 8; 8; 8; 8; 8; 8; 8; 8; 8; 8; 8; 8; 8; 8; 8; 8; 8; 8; 8; 8; 8; 8; 8; 8; 8; 8;
   8; 8; 8; 8; 8; 8; 8; 8; 8; 8; 8; 8; 8; 8; 8; 8; 8; 8; 8; 8; 8; 8; 8; 8; 8; 8; 8; 8; 8; 8; 8; 8;
   8; 8; 8; 8; 8; 8; 8; 8; 8; 8; 8; 8; 8; 8; 8; 8; 8; 8; 8; 8; 8; 8; 8; 8; 8; 8; 8; 8; 8; 8; 8; 8].
(* bit.rs:38-62; indexing past the table or val = 0 panics (None) *)
Definition table (i : N) : option N := nth_error LOG_TABLE_256 (N.to_nat i).
Definition plus_opt (o : option N) (k : N) : option N := match o with Some x => Some (x + k) | None => None end.
Definition log_2_ceil (v : N) : option N :=
  if v =? 0 then None else
  let upper_half := N.shiftr v 16 in
  if upper_half =? 0 then
    let third_quarter := N.shiftr v 8 in
    if third_quarter =? 0 then table v else plus_opt (table third_quarter) 8
  else
    let first_quarter := N.shiftr upper_half 8 in
    if first_quarter =? 0 then plus_opt (table upper_half) 16 else plus_opt (table first_quarter) 24.
