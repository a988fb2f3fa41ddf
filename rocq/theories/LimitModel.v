(* Limit, offset and order of a scan (rust/lance/src/dataset/scanner.rs create_plan,
   rust/lance/src/io/exec/scan.rs).
   Simplifications: the source is the full scan (no scalar, vector or text index); all columns
   are read by the scan (the late take of columns is left out); the filter is a predicate on
   rows; SortExec is a function argument [sort]; GlobalLimitExec is skip then fetch; the v1
   scan is the in-order one. *)
From Coq Require Import List Arith NArith ZArith Bool Lia.
From Verif Require Import Lib AMap RowIdsModel SerdeModel ReadParamsModel TreeMapModel DeletionModel StreamModel FragReadModel.
Import ListNotations.
Local Open Scope nat_scope.

Notation srow := (orow part).
Record query := { q_filter : option (srow -> bool); q_order : option (srow -> srow -> bool);
  q_limit : option Z; q_offset : option Z; q_proj : list Z; q_conf : rconf; q_batch : nat }.

(* Scanner::limit, scanner.rs:619-637: negative numbers are refused *)
Definition limit_accepted (q : query) : bool :=
  (match q_limit q with Some l => (0 <=? l)%Z | None => true end) && (match q_offset q with Some o => (0 <=? o)%Z | None => true end).

(* create_plan 1303-1325; [n] is count_all_rows of the dataset.  offset + limit wraps at 2^63
   in a release build and the cast of the negative sum to u64 gives the sum back *)
Definition two63 : Z := 9223372036854775808.
Definition scan_range (q : query) (n : Z) : option (Z * Z) :=
  match q_filter q with
  | Some _ => None
  | None =>
      match q_limit q, q_offset q with
      | None, None => None
      | Some l, None => Some (0%Z, Z.min l n)
      | None, Some o => Some (Z.min o n, n)
      | Some l, Some o => Some (Z.min o n, if (two63 <=? o + l)%Z then (o + l)%Z else Z.min (o + l) n)
      end
  end.

(* try_new_v2, scan.rs:153-195 *)
Fixpoint split_range (frags : list rfrag) (skip take : nat) : list (rfrag * (nat * nat)) :=
  match take with
  | 0 => []
  | _ => match frags with
         | [] => []
         | g :: t => let n := count_rows g in
             if n <=? skip then split_range t (skip - n) take
             else let k := Nat.min (n - skip) take in (g, (skip, skip + k)) :: split_range t 0 (take - k)
         end
  end.

Fixpoint collect {A} (l : list (outcome (list A))) : outcome (list A) :=
  match l with
  | [] => Ok []
  | Ok x :: t => match collect t with Ok y => Ok (x ++ y) | e => e end
  | Err :: _ => Err
  | Panic :: _ => Panic
  end.
Definition bind_rows {A B} (x : outcome A) (f : A -> outcome B) : outcome B := match x with Ok a => f a | Err => Err | Panic => Panic end.

(* LanceStream::try_new 93-108, try_new_v2 221-225, try_new_v1 (which ignores the range) *)
Definition scan_frags (legacy : bool) (frags : list rfrag) (range : option (Z * Z)) (q : query) : outcome (list srow) :=
  match legacy, range with
  | false, Some (s, e) => collect (map (fun '(g, (a, b)) => read_range g (q_proj q) (q_conf q) a b (q_batch q)) (split_range frags (Z.to_nat s) (Z.to_nat (e - s))))
  | _, _ => collect (map (fun g => read_all g (q_proj q) (q_conf q) (q_batch q)) frags)
  end.

(* limit_node 2322-2328 *)
Definition limit_node (q : query) (rows : list srow) : list srow :=
  let rest := skipn (match q_offset q with Some o => Z.to_nat o | None => 0 end) rows in
  match q_limit q with Some l => firstn (Z.to_nat l) rest | None => rest end.

(* create_plan 1231-1510: source, filter, sort, limit *)
Definition run_scan (sort : (srow -> srow -> bool) -> list srow -> list srow) (legacy : bool) (ds frags : list rfrag) (q : query) : outcome (list srow) :=
  if negb (limit_accepted q) then Err else
  let n := Z.of_nat (sumn (map count_rows ds)) in
  let range := scan_range q n in
  let use_limit_node := negb (match range with Some _ => negb legacy | None => false end) in
  bind_rows (scan_frags legacy frags range q) (fun rows =>
  let rows := match q_filter q with Some p => filter p rows | None => rows end in
  let rows := match q_order q with Some le => sort le rows | None => rows end in
  let limited := (match q_limit q with Some l => (0 <? l)%Z | None => false end) || (match q_offset q with Some _ => true | None => false end) in
  Ok (if use_limit_node && limited then limit_node q rows else rows)).
