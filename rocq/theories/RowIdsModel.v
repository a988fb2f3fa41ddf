(* Model of lance-table's row id sequences.
   Sources: /repo/rust/lance-table/src/rowids/{encoded_array,bitmap,segment}.rs,
            /repo/rust/lance-table/src/rowids.rs
   u64 values are N; usize lengths and positions are nat.  A Rust panic
   (failed unwrap, slice index out of range, arithmetic overflow in a checked
   build) is the value [None]. *)
From Coq Require Import List Arith NArith Bool Lia.
From Verif Require Import Lib.
Import ListNotations.
Local Open Scope nat_scope.

Definition u16_max : N := 65535.
Definition u32_max : N := 4294967295.
Definition u64_max : N := 18446744073709551615.
Definition two64 : N := 18446744073709551616.

(* ------------------------------------------------------------------ *)
(** * encoded_array.rs *)

(* encoded_array.rs:12-26 *)
Inductive enc_arr :=
| EU16 (base : N) (offsets : list N)
| EU32 (base : N) (offsets : list N)
| EU64 (values : list N).

(* Rust's slice::binary_search, by its documented contract on a sorted slice:
   Ok(index of the value) or Err(insertion point).  For a slice with repeated
   values Rust may return any of them; here it is the first. *)
Inductive bs_result := BOk (i : nat) | BErr (i : nat).

Fixpoint slice_bsearch_from (i : nat) (l : list N) (v : N) : bs_result :=
  match l with
  | [] => BErr i
  | x :: t => if (x =? v)%N then BOk i
              else if (v <? x)%N then BErr i
              else slice_bsearch_from (S i) t v
  end.
Definition slice_bsearch (l : list N) (v : N) : bs_result := slice_bsearch_from 0 l v.

Definition bs_is_err (r : bs_result) : bool := match r with BOk _ => false | BErr _ => true end.
Definition bs_ok (r : bs_result) : option nat := match r with BOk i => Some i | BErr _ => None end.
(* Result::unwrap_or_else(|x| x) *)
Definition bs_either (r : bs_result) : nat := match r with BOk i => i | BErr i => i end.

(* encoded_array.rs:29-35 *)
Definition ea_len (a : enc_arr) : nat :=
  match a with EU16 _ o => length o | EU32 _ o => length o | EU64 v => length v end.

(* encoded_array.rs:37-47 *)
Definition ea_iter (a : enc_arr) : list N :=
  match a with
  | EU16 b o => map (fun x => b + x)%N o
  | EU32 b o => map (fun x => b + x)%N o
  | EU64 v => v
  end.

(* encoded_array.rs:49-67 *)
Definition ea_get (a : enc_arr) (i : nat) : option N :=
  match a with
  | EU16 b o => if i <? length o then omap (fun x => b + x)%N (nth_error o i) else None
  | EU32 b o => if i <? length o then omap (fun x => b + x)%N (nth_error o i) else None
  | EU64 v => nth_error v i
  end.

Definition list_minN (l : list N) : option N :=
  match l with [] => None | x :: t => Some (fold_left N.min t x) end.
Definition list_maxN (l : list N) : option N :=
  match l with [] => None | x :: t => Some (fold_left N.max t x) end.
Definition lastN (l : list N) : option N :=
  match l with [] => None | _ => Some (last l 0%N) end.

(* encoded_array.rs:69-87; the narrow encodings answer with the base *)
Definition ea_min (a : enc_arr) : option N :=
  match a with
  | EU16 b o => match o with [] => None | _ => Some b end
  | EU32 b o => match o with [] => None | _ => Some b end
  | EU64 v => list_minN v
  end.

(* encoded_array.rs:89-107 *)
Definition ea_max (a : enc_arr) : option N :=
  match a with
  | EU16 b o => omap (fun m => b + m)%N (list_maxN o)
  | EU32 b o => omap (fun m => b + m)%N (list_maxN o)
  | EU64 v => list_maxN v
  end.

(* encoded_array.rs:109-127 *)
Definition ea_first (a : enc_arr) : option N :=
  match a with
  | EU16 b o => omap (fun m => b + m)%N (hd_error o)
  | EU32 b o => omap (fun m => b + m)%N (hd_error o)
  | EU64 v => hd_error v
  end.

(* encoded_array.rs:129-147 *)
Definition ea_last (a : enc_arr) : option N :=
  match a with
  | EU16 b o => omap (fun m => b + m)%N (lastN o)
  | EU32 b o => omap (fun m => b + m)%N (lastN o)
  | EU64 v => lastN v
  end.

(* encoded_array.rs:149-173 *)
Definition ea_bsearch (a : enc_arr) (val : N) : bs_result :=
  match a with
  | EU16 b o => if (val <? b)%N then BErr 0
                else let v := (val - b)%N in
                     if (u16_max <? v)%N then BErr (length o) else slice_bsearch o v
  | EU32 b o => if (val <? b)%N then BErr 0
                else let v := (val - b)%N in
                     if (u32_max <? v)%N then BErr (length o) else slice_bsearch o v
  | EU64 l => slice_bsearch l val
  end.

(* encoded_array.rs:193-212 (From<Vec<u64>>) and 233-238 (FromIterator).  The
   casts `as u16`/`as u32` are written as mod. *)
Definition ea_from (values : list N) : enc_arr :=
  let mn := match list_minN values with Some m => m | None => 0%N end in
  let mx := match list_maxN values with Some m => m | None => 0%N end in
  let range := (mx - mn)%N in
  match values with
  | [] => EU64 []
  | _ => if (range <=? u16_max)%N
         then EU16 mn (map (fun v => (v - mn) mod 65536)%N values)
         else if (range <=? u32_max)%N
         then EU32 mn (map (fun v => (v - mn) mod 4294967296)%N values)
         else EU64 values
  end.

(* `xs[offset..offset+len]`: panics when out of bounds *)
Definition slice_list {A} (l : list A) (offset len : nat) : option (list A) :=
  if offset + len <=? length l then Some (firstn len (skipn offset l)) else None.

(* encoded_array.rs:175-190 *)
Definition ea_slice (a : enc_arr) (offset len : nat) : option enc_arr :=
  match a with
  | EU16 b o => omap (fun s => ea_from (map (fun x => b + x)%N s)) (slice_list o offset len)
  | EU32 b o => omap (fun s => ea_from (map (fun x => b + x)%N s)) (slice_list o offset len)
  | EU64 v => omap EU64 (slice_list v offset len)
  end.

(* encoded_array.rs:214-231 (From<Range<u64>>); max < min underflows = panic *)
Definition ea_from_range (mn mx : N) : option enc_arr :=
  if (mx <? mn)%N then None
  else let r := (mx - mn)%N in
       if (r <? u16_max)%N then Some (EU16 mn (nrange 0 (N.to_nat r)))
       else if (r <? u32_max)%N then Some (EU32 mn (nrange 0 (N.to_nat r)))
       else Some (EU64 (nrange mn (N.to_nat r))).

(* ------------------------------------------------------------------ *)
(** * bitmap.rs *)

(* bitmap.rs:7-10; data is a list of bytes *)
Record bitmap := { bm_data : list N; bm_len : nat }.

Definition set_nth {A} (l : list A) (i : nat) (x : A) : list A :=
  firstn i l ++ match skipn i l with [] => [] | _ :: t => x :: t end.

(* bitmap.rs:23-26 *)
Definition bm_new_empty (len : nat) : bitmap :=
  {| bm_data := repeat 0%N ((len + 7) / 8); bm_len := len |}.

(* one byte with bit i cleared: `x &= !(1 << i)` *)
Definition byte_clear (x : N) (i : nat) : N := N.ldiff x (N.shiftl 1 (N.of_nat i)).
Definition byte_set (x : N) (i : nat) : N := N.lor x (N.shiftl 1 (N.of_nat i)).
Definition byte_get (x : N) (i : nat) : bool :=
  negb (N.land x (N.shiftl 1 (N.of_nat i)) =? 0)%N.

(* bitmap.rs:28-41 *)
Definition bm_new_full (len : nat) : bitmap :=
  let data := repeat 255%N ((len + 7) / 8) in
  let rem := len mod 8 in
  let data' :=
    if rem =? 0 then data
    else let last_i := length data - 1 in
         let lb := nth last_i data 0%N in
         let lb' := fold_left (fun b off => byte_clear b (7 - off)) (seq 0 (8 - rem)) lb in
         set_nth data last_i lb' in
  {| bm_data := data'; bm_len := len |}.

(* bitmap.rs:43-45; index out of range panics *)
Definition bm_set (b : bitmap) (i : nat) : option bitmap :=
  if i / 8 <? length (bm_data b)
  then Some {| bm_data := set_nth (bm_data b) (i / 8) (byte_set (nth (i / 8) (bm_data b) 0%N) (i mod 8));
               bm_len := bm_len b |}
  else None.

(* bitmap.rs:47-49 *)
Definition bm_clear (b : bitmap) (i : nat) : option bitmap :=
  if i / 8 <? length (bm_data b)
  then Some {| bm_data := set_nth (bm_data b) (i / 8) (byte_clear (nth (i / 8) (bm_data b) 0%N) (i mod 8));
               bm_len := bm_len b |}
  else None.

(* bitmap.rs:51-53; a read out of range panics in Rust and is [false] here: all
   uses below are shown to be in range by [seg_wf] *)
Definition bm_get (b : bitmap) (i : nat) : bool :=
  byte_get (nth (i / 8) (bm_data b) 0%N) (i mod 8).

(* u8::count_ones *)
Definition popcount8 (x : N) : nat :=
  length (filter (fun i => byte_get x i) (seq 0 8)).

(* bitmap.rs:67-69 *)
Definition bm_count_ones (b : bitmap) : nat := sumn (map popcount8 (bm_data b)).
(* bitmap.rs:71-73 *)
Definition bm_count_zeros (b : bitmap) : nat := bm_len b - bm_count_ones b.

(* bitmap.rs:96-134 BitmapSlice::count_ones *)
Definition bms_count_ones (b : bitmap) (start len : nat) : nat :=
  if len =? 0 then 0
  else
    let first_byte := start / 8 in
    let last_byte := (start + len - 1) / 8 in
    let bits byte lo hi := length (filter (fun i => byte_get byte i) (seq lo (hi - lo))) in
    if first_byte =? last_byte
    then bits (nth first_byte (bm_data b) 0%N) (start mod 8) ((start + len - 1) mod 8 + 1)
    else
      bits (nth first_byte (bm_data b) 0%N) (start mod 8) 8
      + bits (nth last_byte (bm_data b) 0%N) 0 ((start + len - 1) mod 8 + 1)
      + sumn (map popcount8 (firstn (last_byte - (first_byte + 1)) (skipn (first_byte + 1) (bm_data b)))).

(* bitmap.rs:136-138 *)
Definition bms_count_zeros (b : bitmap) (start len : nat) : nat := len - bms_count_ones b start len.

(* bitmap.rs:141-151 From<BitmapSlice> for Bitmap *)
Definition bm_from_slice (b : bitmap) (start len : nat) : option bitmap :=
  fold_left (fun acc i =>
      obind acc (fun nb => if bm_get b (start + i) then bm_set nb i else Some nb))
    (seq 0 len) (Some (bm_new_empty len)).

(* ------------------------------------------------------------------ *)
(** * segment.rs *)

(* segment.rs:35-64 *)
Inductive segment :=
| Range (a b : N)
| Holes (a b : N) (holes : enc_arr)
| BMap (a b : N) (bm : bitmap)
| Sorted (arr : enc_arr)
| Arr (arr : enc_arr).

(* segment.rs:80-89 *)
Record stats := { st_min : N; st_max : N; st_count : N; st_sorted : bool }.

(* segment.rs:92-100; None = arithmetic overflow *)
Definition n_holes (s : stats) : option N :=
  if (st_count s =? 0)%N then Some 0%N
  else if (st_max s <? st_min s)%N then None
  else
    let slots := (st_max s - st_min s + 1)%N in
    if (two64 <=? slots)%N then None
    else if (slots <? st_count s)%N then None
    else Some (slots - st_count s)%N.

(* segment.rs:105-119 *)
Fixpoint holes_in (vals existing : list N) : list N :=
  match vals with
  | [] => []
  | v :: vs =>
      match existing with
      | e :: es => if (e =? v)%N then holes_in vs es else v :: holes_in vs existing
      | [] => v :: holes_in vs []
      end
  end.

(* segment.rs:121-151: loop body *)
Definition stats_step (s : stats) (val : N) : stats :=
  let count := (st_count s + 1)%N in
  let mn := if (val <? st_min s)%N then val else st_min s in
  let mx := if (st_max s <? val)%N then val else st_max s in
  let sorted := if st_sorted s && (1 <? count)%N && (val <? mx)%N then false else st_sorted s in
  {| st_min := mn; st_max := mx; st_count := count; st_sorted := sorted |}.

Definition compute_stats (values : list N) : stats :=
  let s := fold_left stats_step values
             {| st_min := u64_max; st_max := 0; st_count := 0; st_sorted := true |} in
  if (st_count s =? 0)%N
  then {| st_min := 0; st_max := 0; st_count := st_count s; st_sorted := st_sorted s |}
  else s.

(* segment.rs:153-162.  The float division and ceil of the bitmap size is the
   exact integer ceiling here; above 2^53 slots the float may differ, which only
   influences which layout is picked (no theorem depends on that choice). *)
Definition seq_sizes (s : stats) (nh : N) : N * N * N :=
  let slots := (st_max s - st_min s + 1)%N in
  ((24 + 4 * nh)%N, (24 + (slots + 7) / 8)%N, (24 + 2 * st_count s)%N).

(* Vec::sort_unstable by its contract *)
Fixpoint insertN (x : N) (l : list N) : list N :=
  match l with
  | [] => [x]
  | y :: t => if (x <=? y)%N then x :: l else y :: insertN x t
  end.
Definition sortN (l : list N) : list N := fold_right insertN [] l.

Definition bm_clear_all (b : bitmap) (offs : list nat) : option bitmap :=
  fold_left (fun acc o => obind acc (fun nb => bm_clear nb o)) offs (Some b).

(* `max + 1` in u64 *)
Definition checked_succ (m : N) : option N := if (m + 1 <? two64)%N then Some (m + 1)%N else None.

(* segment.rs:164-204 *)
Definition from_stats (s : stats) (seqn : list N) : option segment :=
  if st_sorted s then
    obind (n_holes s) (fun nh =>
    if (st_count s =? 0)%N then Some (Range 0 0)
    else if (nh =? 0)%N then omap (fun e => Range (st_min s) e) (checked_succ (st_max s))
    else
      let '(s0, s1, s2) := seq_sizes s nh in
      let mn := N.min s0 (N.min s1 s2) in
      let slots := N.to_nat (st_max s - st_min s + 1)%N in
      if (mn =? s0)%N then
        obind (checked_succ (st_max s)) (fun e =>
        Some (Holes (st_min s) e (ea_from (sortN (holes_in (nrange (st_min s) slots) seqn)))))
      else if (mn =? s1)%N then
        obind (checked_succ (st_max s)) (fun e =>
        omap (fun bm => BMap (st_min s) e bm)
             (bm_clear_all (bm_new_full slots)
                (map (fun h => N.to_nat (h - st_min s)) (holes_in (nrange (st_min s) slots) seqn))))
      else Some (Sorted (ea_from seqn)))
  else Some (Arr (ea_from seqn)).

(* segment.rs:206-209 *)
Definition seg_from_slice (l : list N) : option segment := from_stats (compute_stats l) l.

Definition range_list (a b : N) : list N := nrange a (N.to_nat (b - a)).

(* segment.rs:213-233 *)
Definition seg_iter (s : segment) : list N :=
  match s with
  | Range a b => range_list a b
  | Holes a b h => filter (fun v => bs_is_err (ea_bsearch h v)) (range_list a b)
  | BMap a b bm => filter (fun v => bm_get bm (N.to_nat (v - a))) (range_list a b)
  | Sorted arr => ea_iter arr
  | Arr arr => ea_iter arr
  end.

(* segment.rs:235-249 *)
Definition seg_len (s : segment) : nat :=
  match s with
  | Range a b => N.to_nat (b - a)
  | Holes a b h => N.to_nat (b - a) - length (ea_iter h)
  | BMap a b bm => N.to_nat (b - a) - bm_count_zeros bm
  | Sorted arr => ea_len arr
  | Arr arr => ea_len arr
  end.

(* segment.rs:252-270; result: outer None = panic, inner None = no range *)
Definition seg_range (s : segment) : option (option (N * N)) :=
  match s with
  | Range a b => if (a <? b)%N then Some (Some (a, b - 1)%N) else Some None
  | BMap a b _ => Some (Some (a, b - 1)%N)
  | Holes a b _ => Some (Some (a, b - 1)%N)
  | Sorted arr =>
      match ea_first arr, ea_last arr with
      | Some f, Some l => Some (Some (f, l))
      | _, _ => None
      end
  | Arr arr =>
      match ea_min arr, ea_max arr with
      | Some f, Some l => Some (Some (f, l))
      | _, _ => None
      end
  end.

(* segment.rs:272-315.  In the Holes case `start` and `end` are re-bound to hole
   *indices* before they are used as the bounds of the result (lines 282-293);
   the transcription keeps that. *)
Definition seg_slice (s : segment) (offset len : nat) : option segment :=
  match s with
  | Range a b =>
      let st := (a + N.of_nat offset)%N in Some (Range st (st + N.of_nat len))
  | Holes a b h =>
      let st := (a + N.of_nat offset)%N in
      let en := (st + N.of_nat len)%N in
      let st' := bs_either (ea_bsearch h st) in
      let en' := bs_either (ea_bsearch h en) in
      if en' <? st' then None
      else
      let hl := en' - st' in
      if hl =? 0 then Some (Range (N.of_nat st') (N.of_nat en'))
      else omap (fun hs => Holes (N.of_nat st') (N.of_nat en') hs) (ea_slice h st' hl)
  | BMap a b bm =>
      let st := (a + N.of_nat offset)%N in
      let en := (st + N.of_nat len)%N in
      if bms_count_ones bm offset len =? len then Some (Range st en)
      else omap (fun nb => BMap st en nb) (bm_from_slice bm offset len)
  | Sorted arr => omap Sorted (ea_slice arr offset len)
  | Arr arr => omap Arr (ea_slice arr offset len)
  end.

(* Iterator::take_while(..).count() *)
Fixpoint take_while_count (f : N -> bool) (l : list N) : nat :=
  match l with
  | [] => 0
  | x :: t => if f x then S (take_while_count f t) else 0
  end.

Fixpoint position_of (v : N) (l : list N) : option nat :=
  match l with
  | [] => None
  | x :: t => if (x =? v)%N then Some 0 else omap S (position_of v t)
  end.

Definition in_range (a b v : N) : bool := (a <=? v)%N && (v <? b)%N.

(* segment.rs:317-347 *)
Definition seg_position (s : segment) (v : N) : option nat :=
  match s with
  | Range a b => if in_range a b v then Some (N.to_nat (v - a)) else None
  | Holes a b h =>
      if in_range a b v && bs_is_err (ea_bsearch h v)
      then Some (N.to_nat (v - a) - take_while_count (fun x => (x <? v)%N) (ea_iter h))
      else None
  | BMap a b bm =>
      if in_range a b v && bm_get bm (N.to_nat (v - a))
      then Some (N.to_nat (v - a) - bms_count_zeros bm 0 (N.to_nat (v - a)))
      else None
  | Sorted arr => bs_ok (ea_bsearch arr v)
  | Arr arr => position_of v (ea_iter arr)
  end.

(* segment.rs:349-370 *)
Definition seg_get (s : segment) (i : nat) : option N :=
  match s with
  | Range a b =>
      let v := (a + N.of_nat i)%N in
      if (v <? two64)%N && (v <? b)%N then Some v else None
  | Holes a b _ => if N.to_nat (b - a) <=? i then None else nth_error (seg_iter s) i
  | BMap a b _ => if N.to_nat (b - a) <=? i then None else nth_error (seg_iter s) i
  | Sorted arr => ea_get arr i
  | Arr arr => ea_get arr i
  end.

(* segment.rs:380-391: iterate and drop values matching the next value to delete *)
Fixpoint drop_matching (vals dels : list N) : list N :=
  match vals with
  | [] => []
  | v :: vs =>
      match dels with
      | d :: ds => if (d =? v)%N then drop_matching vs ds else v :: drop_matching vs dels
      | [] => v :: drop_matching vs []
      end
  end.

(* segment.rs:376-394 (the debug assertion at 378 is left out) *)
Definition seg_delete (s : segment) (vals : list N) : option segment :=
  let l := drop_matching (seg_iter s) vals in
  from_stats (compute_stats l) l.

(* segment.rs:413-417: zip (0..len) with positions.cycle(), find the first pair that differs *)
Definition cycle_nth (ps : list nat) (i : nat) : nat := nth (i mod length ps) ps 0.
Definition first_unmasked (len : nat) (ps : list nat) : option nat :=
  find (fun i => negb (cycle_nth ps i =? i)) (seq 0 len).
(* segment.rs:420-426: the same from the end *)
Definition last_unmasked (len : nat) (ps : list nat) : option nat :=
  omap (fun j => len - 1 - j)
    (find (fun j => negb (cycle_nth (rev ps) j =? len - 1 - j)) (seq 0 len)).

(* segment.rs:437-445: enumerate and drop positions matching the next one *)
Fixpoint drop_positions (i : nat) (vals : list N) (ps : list nat) : list N :=
  match vals with
  | [] => []
  | v :: vs =>
      match ps with
      | p :: pt => if p =? i then drop_positions (S i) vs pt else v :: drop_positions (S i) vs ps
      | [] => v :: drop_positions (S i) vs []
      end
  end.

(* segment.rs:396-447 *)
Definition seg_mask (s : segment) (ps : list nat) : option segment :=
  match ps with
  | [] => Some s
  | _ =>
      if length ps =? seg_len s then Some (Range 0 0)
      else if seg_len s <? length ps then None
      else
        let sorted := match s with Arr _ => false | _ => true end in
        obind (obind (first_unmasked (seg_len s) ps) (seg_get s)) (fun mn =>
        obind (obind (last_unmasked (seg_len s) ps) (seg_get s)) (fun mx =>
        from_stats {| st_min := mn; st_max := mx;
                      st_count := N.of_nat (seg_len s - length ps); st_sorted := sorted |}
                   (drop_positions 0 (seg_iter s) ps)))
  end.

(* ------------------------------------------------------------------ *)
(** * rowids.rs *)

Definition rowseq := list segment.

(* rowids.rs:96-98 *)
Definition seq_iter (q : rowseq) : list N := flat_map seg_iter q.
(* rowids.rs:100-102 *)
Definition seq_len (q : rowseq) : nat := sumn (map seg_len q).

(* rowids.rs:109-126 *)
Definition seq_extend (q other : rowseq) : rowseq :=
  match rev q, other with
  | Range a1 b1 :: rq, Range a2 b2 :: ot =>
      if (b1 =? a2)%N then rev rq ++ Range a1 b2 :: ot else q ++ other
  | _, _ => q ++ other
  end.

Fixpoint insert_nat (x : nat) (l : list nat) : list nat :=
  match l with
  | [] => [x]
  | y :: t => if x <=? y then x :: l else y :: insert_nat x t
  end.
Definition sort_nat (l : list nat) : list nat := fold_right insert_nat [] l.

(* rowids.rs:191-242.  The cyclic iterator advances by exactly one full round
   per searched id (the inner loop has no break), so every id is looked up in
   every segment, in order.  Result: for each segment, the sorted offsets of
   the matches; None = panic in [seg_range]. *)
Definition seg_match (s : segment) (id : N) : option (list nat) :=
  match seg_range s with
  | None => None
  | Some None => Some []
  | Some (Some (lo, hi)) =>
      if (lo <=? id)%N && (id <=? hi)%N
      then match seg_position s id with Some o => Some [o] | None => Some [] end
      else Some []
  end.

Definition seg_matches (s : segment) (ids : list N) : option (list nat) :=
  omap (fun ll => sort_nat (concat ll)) (sequence_opt (map (seg_match s) ids)).

(* row ids of the matches of one segment: rowids.rs:231-239 *)
Definition seg_match_ids (s : segment) (offs : list nat) : option (list N) :=
  sequence_opt (map (seg_get s) offs).

(* rowids.rs:129-153: segments without a match are copied, the others replaced
   by [seg_delete]; the (segment index, range) bookkeeping of find_ids hands each
   segment exactly its own matches *)
Definition seg_delete_ids (s : segment) (ids : list N) : option segment :=
  obind (seg_matches s ids) (fun offs =>
  match offs with
  | [] => Some s
  | _ => obind (seg_match_ids s offs) (fun vals => seg_delete s vals)
  end).

Definition seq_delete (q : rowseq) (ids : list N) : option rowseq :=
  sequence_opt (map (fun s => seg_delete_ids s ids) q).

(* rowids.rs:163-179: split off the positions below the cutoff; a position below
   [offset] (possible only for unsorted input) underflows: None *)
Fixpoint split_below (cutoff offset : nat) (ps : list nat) : option (list nat * list nat) :=
  match ps with
  | p :: pt => if cutoff <=? p then Some ([], ps)
               else if p <? offset then None
               else omap (fun '(l, r) => (p - offset :: l, r)) (split_below cutoff offset pt)
  | [] => Some ([], [])
  end.

Fixpoint mask_loop (q : rowseq) (offset : nat) (ps : list nat) : option rowseq :=
  match q with
  | [] => Some []
  | s :: qs =>
      let cutoff := offset + seg_len s in
      obind (split_below cutoff offset ps) (fun '(local, rest) =>
      obind (match local with [] => Some s | _ => seg_mask s local end) (fun s' =>
      omap (cons s') (mask_loop qs cutoff rest)))
  end.

(* rowids.rs:156-184 *)
Definition seq_mask (q : rowseq) (ps : list nat) : option rowseq :=
  omap (filter (fun s => negb (seg_len s =? 0))) (mask_loop q 0 ps).

(* rowids.rs:333-341 *)
Record seqslice := { sl_segs : list segment; sl_start : nat; sl_last : nat }.

(* rowids.rs:253-263: skip segments before [offset] *)
Fixpoint skip_segments (q : rowseq) (offset : nat) : rowseq * nat :=
  match q with
  | [] => ([], offset)
  | s :: qs => if offset <? seg_len s then (q, offset) else skip_segments qs (offset - seg_len s)
  end.

(* rowids.rs:266-281: the segments up to the one where the slice ends; None when
   the end is past the last segment (slice index panic) *)
Fixpoint take_segments (q : rowseq) (last : nat) : option (list segment * nat) :=
  match q with
  | [] => None
  | s :: qs => if last <=? seg_len s then Some ([s], last)
               else omap (fun '(ss, l) => (s :: ss, l)) (take_segments qs (last - seg_len s))
  end.

(* rowids.rs:244-282 *)
Definition seq_slice (q : rowseq) (offset len : nat) : option seqslice :=
  if len =? 0 then Some {| sl_segs := []; sl_start := 0; sl_last := 0 |}
  else
    let '(rest, off) := skip_segments q offset in
    omap (fun '(ss, l) => {| sl_segs := ss; sl_start := off; sl_last := l |})
         (take_segments rest (off + len)).

(* rowids.rs:343-369 (the known_size hint is left out) *)
Definition slice_iter (sl : seqslice) : list N :=
  let n := length (sl_segs sl) in
  flat_map (fun '(i, s) =>
      if (i =? 0) && (n =? 1) then firstn (sl_last sl - sl_start sl) (skipn (sl_start sl) (seg_iter s))
      else if i =? 0 then skipn (sl_start sl) (seg_iter s)
      else if i =? n - 1 then firstn (sl_last sl) (seg_iter s)
      else seg_iter s)
    (combine (seq 0 n) (sl_segs sl)).

(* rowids.rs:287-297 *)
Fixpoint seq_get_from (q : rowseq) (offset index : nat) : option N :=
  match q with
  | [] => None
  | s :: qs => if index <? offset + seg_len s then seg_get s (index - offset)
               else seq_get_from qs (offset + seg_len s) index
  end.
Definition seq_get (q : rowseq) (index : nat) : option N := seq_get_from q 0 index.

(* rowids.rs:377-446.  State of the loop: remaining segments, offset in the
   first of them.  [fuel] bounds the inner while loop. *)
Inductive rc_result (A : Type) := RcOk (a : A) | RcErr | RcFuel.
Arguments RcOk {A}. Arguments RcErr {A}. Arguments RcFuel {A}.

Fixpoint rechunk_one (fuel : nat) (segs : list segment) (off remaining : nat) (acc : rowseq)
  : rc_result (rowseq * list segment * nat) :=
  if remaining =? 0 then RcOk (acc, segs, off)
  else match fuel with
  | O => RcFuel
  | S f =>
      let ris := match segs with [] => 0 | s :: _ => seg_len s - off end in
      if remaining <? ris then
        match segs with
        | [] => RcErr
        | s :: _ => match seg_slice s off remaining with
                    | Some p => rechunk_one f segs (off + remaining) 0 (seq_extend acc [p])
                    | None => RcErr
                    end
        end
      else if ris =? 0 then
        match segs with
        | [] => RcErr
        | s :: ss => rechunk_one f ss off 0 (seq_extend acc [s])
        end
      else
        match segs with
        | [] => RcErr
        | s :: ss => match seg_slice s off ris with
                     | Some p => rechunk_one f ss 0 (remaining - ris) (seq_extend acc [p])
                     | None => RcErr
                     end
        end
  end.

Fixpoint rechunk_loop (segs : list segment) (off : nat) (sizes : list nat)
  : rc_result (list rowseq) :=
  match sizes with
  | [] => match segs with [] => RcOk [] | _ => RcErr end
  | n :: ns =>
      match rechunk_one (S (S (length segs))) segs off n [] with
      | RcOk (c, segs', off') =>
          match rechunk_loop segs' off' ns with
          | RcOk cs => RcOk (c :: cs)
          | RcErr => RcErr
          | RcFuel => RcFuel
          end
      | RcErr => RcErr
      | RcFuel => RcFuel
      end
  end.

Definition rechunk_sequences (qs : list rowseq) (sizes : list nat) : rc_result (list rowseq) :=
  rechunk_loop (concat qs) 0 sizes.
