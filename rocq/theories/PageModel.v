(* Reading ranges of rows from the pages of a column (file format 2.0):
   rust/lance-encoding/src/encodings/logical/primitive.rs PrimitiveFieldScheduler 74-133 and
   PrimitiveFieldSchedulingJob 135-247, driven by decoder.rs do_schedule_ranges_legacy 1159-1221.
   Simplifications: rows are natural numbers; a page is the list of the values that its decoder
   gives for all of its rows, and the decoder of some ranges of a page gives the values there
   (PageScheduler::schedule_ranges); priorities and I/O are left out. *)
From Coq Require Import List Arith Bool Lia.
From Verif Require Import Lib.
Import ListNotations.
Local Open Scope nat_scope.

Notation range := (nat * nat)%type.
Definition slice {A} (s e : nat) (l : list A) : list A := firstn (e - s) (skipn s l).
(* physical decoding of some ranges of a page *)
Definition read_page {A} (page : list A) (rs : list range) : list A := flat_map (fun r => slice (fst r) (snd r) page) rs.

(* PrimitiveFieldScheduler::new 83-121: empty pages are left out *)
Definition page_schedulers {A} (pages : list (list A)) : list (list A) := filter (fun p => 0 <? length p) pages.

(* the loop over the ranges within one page of n rows that starts at row g, 184-205: the ranges in the
   page and the ranges left.  When a range lies before the page, `range.end - range.start` underflows
   (a panic in debug builds) and the minimum with the rows of the page gives its end. *)
Fixpoint in_page (g n : nat) (rs : list range) : list range * list range :=
  match rs with
  | [] => ([], [])
  | (s, e) :: t =>
      if s <? n + g then
        let s' := Nat.max s g in
        let a := s' - g in
        let b := if e <? s' then n else Nat.min (a + (e - s')) n in
        if e <=? b + g then let '(x, r) := in_page g n t in ((a, b) :: x, r)
        else ([(a, b)], rs)
      else ([], rs)
  end.
(* schedule_next 160-243 until all ranges are scheduled: for every page read its rows and the ranges; None
   is a panic (no page left).  The pages are those not yet used, g the rows of the pages used. *)
Fixpoint schedule {A} (g : nat) (pages : list (list A)) (rs : list range) : option (list (list A * list range)) :=
  match rs with
  | [] => Some []
  | (s, _) :: _ =>
      match pages with
      | [] => None
      | p :: t =>
          if length p + g <=? s then schedule (g + length p) t rs
          else let '(x, r) := in_page g (length p) rs in omap (cons (p, x)) (schedule (g + length p) t r)
      end
  end.
(* the rows that the decoders of a column give, in order *)
Definition read_column {A} (pages : list (list A)) (rs : list range) : option (list A) :=
  omap (flat_map (fun pr => read_page (fst pr) (snd pr))) (schedule 0 (page_schedulers pages) rs).
(* decoder.rs schedule_take 1329-1346 *)
Definition take_column {A} (pages : list (list A)) (idx : list nat) : option (list A) := read_column pages (map (fun i => (i, S i)) idx).
