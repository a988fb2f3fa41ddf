(* Lists in file format 2.0: rust/lance-encoding/src/encodings/logical/list.rs.
   Simplifications: numbers are natural numbers (u64, i32 and i64 do not overflow, except where an i32
   limits a batch); a list array is its offsets, its validity and its values; the column of the
   offsets is read as in PageModel (the inner encoding gives back the u64 values); the scheduler of
   the items is a parameter that gives the items at some ranges; priorities and I/O are left out. *)
From Coq Require Import List Arith Bool Lia.
From Verif Require Import Lib PageModel.
Import ListNotations.
Local Open Scope nat_scope.

(* an arrow list array: length n, n+1 offsets, validity if there is any *)
Record larr (V : Type) := { la_offsets : list nat; la_valid : option (list bool); la_values : list V }.
Arguments la_offsets {V}. Arguments la_valid {V}. Arguments la_values {V}.

(* ---- writing ---- *)
(* ListFieldEncoder::maybe_encode 1174-1198: the values that the offsets refer to *)
Definition items_of {V} (a : larr V) : list V := slice (hd 0 (la_offsets a)) (last (la_offsets a) 0) (la_values a).
(* get_offset_span 976-989 *)
Definition span {V} (a : larr V) : nat := last (la_offsets a) 0 - hd 0 (la_offsets a).
(* extract_validity 891-899 with 1103-1112: no validity, or an empty one, is None *)
Definition validity {V} (a : larr V) : option (list bool) := match la_valid a with Some [] => None | Some v => Some v | None => None end.
(* extend_offsets_vec_u64 993-1064; `v + base - start` is never negative *)
Definition extend_offsets {V} (a : larr V) (base adj : nat) : list nat :=
  let start := hd 0 (la_offsets a) in
  match validity a with
  | Some v => map (fun p : nat * bool => fst p + base - start + if snd p then 0 else adj) (combine (tl (la_offsets a)) v)
  | None => map (fun o => o + base - start) (tl (la_offsets a))
  end.
(* do_encode_u64 1066-1094 *)
Definition encode_offsets {V} (arrs : list (larr V)) (adj : nat) : list nat :=
  fold_left (fun dest a => dest ++ extend_offsets a (last dest 0 mod adj) adj) arrs [].
(* do_encode 1096-1138: a page of offsets with pb::List *)
Record lpage := { lp_offsets : list nat; lp_adj : nat; lp_items : nat }.
Definition encode_page {V} (arrs : list (larr V)) : lpage :=
  let total := sumn (map span arrs) in
  {| lp_offsets := encode_offsets arrs (total + 1); lp_adj := total + 1; lp_items := total |}.

(* ---- the requests ---- *)
(* OffsetPageInfo 524-528 is read off a page, decoder.rs:701-730; pages without rows are left out *)
Definition offset_pages (ps : list lpage) : list lpage := filter (fun p => 0 <? length (lp_offsets p)) ps.
(* ListRequest 68-78 *)
Record lreq := { lr_num : nat; lr_extra : bool; lr_adj : nat; lr_items : nat }.
(* the pages before a range, 102-107; None: unwrap of None *)
Fixpoint skip_pages (oo io : nat) (ps : list lpage) (start : nat) : option (nat * nat * list lpage) :=
  match ps with
  | [] => None
  | p :: t => if oo + length (lp_offsets p) <=? start then skip_pages (oo + length (lp_offsets p)) (io + lp_items p) t start
              else Some (oo, io, ps)
  end.
(* slicing a range into requests, 120-143 *)
Fixpoint slice_range (oo io : nat) (ps : list lpage) (s e : nat) (extra : bool) : option (list lreq * (nat * nat * list lpage)) :=
  if e <=? s then Some ([], (oo, io, ps)) else
  match ps with
  | [] => None
  | p :: t =>
      let pe := oo + length (lp_offsets p) in
      let q := {| lr_num := Nat.min pe e - s; lr_extra := extra; lr_adj := lp_adj p; lr_items := io |} in
      if e <=? pe then Some ([q], (oo, io, ps))
      else omap (fun '(qs, st) => (q :: qs, st)) (slice_range pe (io + lp_items p) t pe e false)
  end.
(* ListRequestsIter::new 89-150: the requests, and the ranges of offsets to read *)
Fixpoint list_requests (oo io : nat) (ps : list lpage) (rs : list range) : option (list lreq * list range) :=
  match rs with
  | [] => Some ([], [])
  | (s, e) :: t =>
      obind (skip_pages oo io ps s) (fun '(oo, io, ps) =>
      let extra := negb (s =? oo) in
      obind (slice_range oo io ps s e extra) (fun '(qs, (oo, io, ps)) =>
      omap (fun '(qs', os) => (qs ++ qs', (if extra then s - 1 else s, e) :: os)) (list_requests oo io ps t)))
  end.
(* ListRequestsIter::next 153-182; None: unwrap of None *)
Fixpoint next_requests (n : nat) (qs : list lreq) : option (list lreq * list lreq) :=
  match n with
  | 0 => Some ([], qs)
  | S _ =>
      match qs with
      | [] => None
      | q :: t =>
          let n := if lr_extra q then n - 1 else n in
          if lr_num q <=? n then omap (fun '(x, r) => (q :: x, r)) (next_requests (n - lr_num q) t)
          else Some ([{| lr_num := n; lr_extra := lr_extra q; lr_adj := lr_adj q; lr_items := lr_items q |}],
                     {| lr_num := lr_num q - n; lr_extra := false; lr_adj := lr_adj q; lr_items := lr_items q |} :: t)
      end
  end.

(* ---- decode_offsets 203-314 ---- *)
Definition at_off (vals : list nat) (i adj : nat) : nat := nth i vals 0 mod adj.
(* the windows 286-300; None: the panic *)
Fixpoint shift (adj acc : nat) (w : list nat) : option (list nat) :=
  match w with
  | a :: ((b :: _) as t) =>
      if b mod adj <? a mod adj then None
      else let acc' := acc + (b mod adj - a mod adj) in omap (cons acc') (shift adj acc' t)
  | _ => Some []
  end.
(* the state: offsets consumed, last normalised offset *)
Fixpoint decode_loop (vals : list nat) (adj : nat) (qs : list lreq) (used lastn : nat) : option (list range * list nat * list bool) :=
  match qs with
  | [] => Some ([], [], [])
  | q :: t =>
      let n := lr_num q in
      let '(first, count) := if lr_extra q then (used, n + 1) else (0, n) in
      let s := if lr_extra q then at_off vals used adj else 0 in
      let e := at_off vals (first + count - 1) adj in
      let valid := map (fun o => o <? adj) (slice (if lr_extra q then used + 1 else 0) ((if lr_extra q then used + 1 else 0) + n) vals) in
      let '(pre, lastn) := if lr_extra q then ([], lastn) else ([at_off vals 0 adj], at_off vals 0 adj) in
      obind (shift adj lastn (slice first (first + count) vals)) (fun norm =>
      omap (fun '(rs, os, vs) => ((if s <? e then [(s + lr_items q, e + lr_items q)] else []) ++ rs, pre ++ norm ++ os, valid ++ vs))
           (decode_loop vals adj t (used + count) (last (pre ++ norm) lastn)))
  end.
Definition decode_offsets (vals : list nat) (qs : list lreq) (adj : nat) : option (list range * list nat * list bool) :=
  omap (fun '(rs, os, vs) => (rs, 0 :: os, vs)) (decode_loop vals adj qs 0 0).

(* ---- decoding ---- *)
(* the state of a ListPageDecoder once loaded, 579-592 with indirect_schedule_task 322-390 *)
Record ldec (V : Type) := { ld_offsets : list nat; ld_valid : list bool; ld_items : list V }.
Arguments ld_offsets {V}. Arguments ld_valid {V}. Arguments ld_items {V}.
(* schedule_next 434-496 and the indirect task, for one page of offsets *)
Definition load_page {V} (read_items : list range -> option (list V)) (vals : list nat) (qs : list lreq) : option (ldec V) :=
  match qs with
  | [] => None
  | q :: _ =>
      obind (decode_offsets vals qs (lr_adj q)) (fun '(rs, os, vs) =>
      match rs with
      | [] => Some {| ld_offsets := os; ld_valid := vs; ld_items := [] |}
      | _ => omap (fun items => {| ld_offsets := os; ld_valid := vs; ld_items := items |}) (read_items rs)
      end)
  end.
(* every page of offsets scheduled by the offsets' job *)
Fixpoint load_pages {V} (read_items : list range -> option (list V)) (jobs : list (list nat * list range)) (qs : list lreq) : option (list (ldec V)) :=
  match jobs with
  | [] => Some []
  | (page, rs) :: t =>
      let vals := read_page page rs in
      obind (next_requests (length vals) qs) (fun '(mine, rest) =>
      obind (load_page read_items vals mine) (fun d => omap (cons d) (load_pages read_items t rest)))
  end.
(* ListFieldSchedulingJob::try_new 411-428 and its run *)
Definition load_lists {V} (ps : list lpage) (read_items : list range -> option (list V)) (rs : list range) : option (list (ldec V)) :=
  obind (list_requests 0 0 (offset_pages ps) rs) (fun '(qs, os) =>
  obind (schedule 0 (map lp_offsets (offset_pages ps)) os) (fun jobs => load_pages read_items jobs qs)).

(* ListPageDecoder::drain 688-744 and ListDecodeTask::decode 600-648: [limit] tells whether
   a batch may have that many items (at most i32::MAX for lists with i32 offsets, else an error; any
   number for large lists). *)
Definition drain {V} (limit : nat -> bool) (d : ldec V) (n : nat) : option (larr V * ldec V) :=
  let os := firstn (n + 1) (ld_offsets d) in
  let count := last os 0 - hd 0 os in
  if limit count then
    Some ({| la_offsets := map (fun o => o - hd 0 os) os; la_valid := Some (firstn n (ld_valid d)); la_values := firstn count (ld_items d) |},
          {| ld_offsets := skipn n (ld_offsets d); ld_valid := skipn n (ld_valid d); ld_items := skipn count (ld_items d) |})
  else None.
Fixpoint drain_all {V} (limit : nat -> bool) (d : ldec V) (ns : list nat) : option (list (larr V)) :=
  match ns with
  | [] => Some []
  | n :: t => obind (drain limit d n) (fun '(a, d') => omap (cons a) (drain_all limit d' t))
  end.
