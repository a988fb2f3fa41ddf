(* Dataset take (rust/lance/src/dataset/take.rs), filtering of deleted addresses
   (rust/lance/src/dataset.rs:1083-1242) and fragment lookup by row offset
   (rust/lance-table/src/format/manifest.rs).
   Column values are of an arbitrary type A (one value stands for the whole
   projected row).  Blob columns (sibling datasets) are not modelled. *)
From Coq Require Import List Arith NArith Bool Lia.
From Verif Require Import Lib AMap RowIdsModel SerdeModel ReadParamsModel TreeMapModel DeletionModel StreamModel.
Import ListNotations.
Local Open Scope N_scope.

(* a fragment: its id, the rows stored in its data files, and the deletion vector
   of its deletion file (None = no deletion file) *)
Record frag (A : Type) := { fr_id : N; fr_rows : list A; fr_dv : option dv }.
Arguments fr_id {A}. Arguments fr_rows {A}. Arguments fr_dv {A}.

(* fragment.rs:905-945 count_rows(None): physical rows minus recorded deletions *)
Definition count_rows {A} (f : frag A) : N :=
  N.of_nat (length (fr_rows f)) - match fr_dv f with Some d => N.of_nat (dv_len d) | None => 0 end.

(* The `permutation` crate: [p] lists source positions; apply_slice(l)[i] =
   l[p[i]] and apply_inv_slice puts element i back at position p[i]; a length
   mismatch panics = None. *)
Fixpoint index_of (j : nat) (p : list nat) : option nat :=
  match p with [] => None | x :: t => if (x =? j)%nat then Some 0%nat else omap S (index_of j t) end.
Definition apply_slice (p : list nat) (l : list N) : list N := map (fun i => nth i l 0) p.
Definition apply_inv {B} (p : list nat) (l : list B) : option (list B) :=
  if negb (length p =? length l)%nat then None
  else sequence_opt (map (fun j => obind (index_of j p) (nth_error l)) (seq 0 (length p))).

(* ---- take.rs:27-106, offsets to addresses ---- *)
(* take.rs:53-58, 71-76: mapper for the current fragment *)
Definition mapper_of {A} (fs : list (frag A)) : option (dv * mapper) :=
  match fs with f :: _ => omap (fun d => (d, om_new)) (fr_dv f) | [] => None end.

(* take.rs:63-77: the while loop; the head of the list is cur_frag *)
Fixpoint seek {A} (fs : list (frag A)) (off : N) (mp : option (dv * mapper)) (o : N)
  : list (frag A) * N * option (dv * mapper) :=
  match fs with
  | [] => ([], off, mp)
  | f :: t => if off + count_rows f <=? o then seek t (off + count_rows f) (mapper_of t) o
              else (fs, off, mp)
  end.

(* take.rs:62-90; None = a panic in the offset mapper *)
Fixpoint addr_loop {A} (fs : list (frag A)) (off : N) (mp : option (dv * mapper)) (os : list N) : option (list N) :=
  match os with
  | [] => Some []
  | o :: os' =>
      let '(fs', off', mp') := seek fs off mp o in
      match fs' with
      | [] => omap (cons TOMBSTONE_ROW) (addr_loop fs' off' mp' os')
      | f :: _ =>
          let local := (o - off') mod two32 in
          match mp' with
          | None => omap (cons (new_from_parts (fr_id f mod two32) local)) (addr_loop fs' off' mp' os')
          | Some (d, m) =>
              match map_offset d m local with
              | OmOk v m' => omap (cons (new_from_parts (fr_id f mod two32) v)) (addr_loop fs' off' (Some (d, m')) os')
              | _ => None
              end
          end
      end
  end.

(* take.rs:40-93; [p] is the permutation computed by permutation::sort *)
Definition offsets_to_addrs {A} (fs : list (frag A)) (p : list nat) (offsets : list N) : option (list N) :=
  obind (addr_loop fs 0 (mapper_of fs) (apply_slice p offsets)) (apply_inv p).

(* ---- reading rows of one fragment ---- *)
(* fragment.rs:1958-2052 (new_read_impl): check the request, read it in batches,
   attach addresses, drop deleted rows.  [batching] is how the file reader cuts
   the requested rows into batches. *)
Section Read.
Context {A : Type}.
Variable batching : list A -> list (list A).

Definition pick_rows (rows : list A) (offs : list nat) : list A :=
  flat_map (fun o => match nth_error rows o with Some a => [a] | None => [] end) offs.

Definition frag_read (f : frag A) (p : params) (with_addr : bool) : outcome (list (orow A)) :=
  let total := length (fr_rows f) in
  if negb (valid_given_len p total) then Err
  else wrap_batches (batching (pick_rows (fr_rows f) (to_offsets_total p total))) 0 (fr_id f)
         {| c_params := p; c_with_id := false; c_with_addr := with_addr; c_dv := fr_dv f;
            c_seq := None; c_null := false |}.

(* fragment.rs:1284-1308 *)
Definition frag_take_rows (f : frag A) (offs : list N) (with_addr : bool) : outcome (list (orow A)) :=
  if (1 <? length offs)%nat && row_ids_contiguous offs
  then frag_read f (PRange (N.to_nat (hd 0 offs)) (N.to_nat (last offs 0) + 1)) with_addr
  else frag_read f (PIdx (map N.to_nat offs)) with_addr.

(* dataset.rs:1067-1075 *)
Definition get_fragment (fs : list (frag A)) (id : N) : option (frag A) := find (fun f => fr_id f =? id) fs.

(* take.rs:433-455; `last_id + 1` wraps around at u64::MAX (release build) *)
Record addr_stats := { as_sorted : bool; as_contiguous : bool }.
Fixpoint check_loop (first_frag last : N) (l : list N) (s : addr_stats) : addr_stats :=
  match l with
  | [] => s
  | id :: t => check_loop first_frag id t
                 {| as_sorted := as_sorted s && (last <? id);
                    as_contiguous := as_contiguous s && (id =? (last + 1) mod two64) && (N.shiftr id 32 =? first_frag) |}
  end.
Definition check_row_addrs (l : list N) : addr_stats :=
  match l with
  | [] => {| as_sorted := true; as_contiguous := true |}
  | x :: t => check_loop (N.shiftr x 32) x t {| as_sorted := true; as_contiguous := true |}
  end.

(* take.rs:163-183: maximal runs of addresses of the same fragment *)
Fixpoint runs (l : list N) : list (N * list N) :=
  match l with
  | [] => []
  | x :: t => match runs t with
              | (f, r) :: rest => if f =? N.shiftr x 32 then (f, x :: r) :: rest else (N.shiftr x 32, [x]) :: (f, r) :: rest
              | [] => [(N.shiftr x 32, [x])]
              end
  end.

(* sequencing of fallible reads: the first failure is the result *)
Fixpoint all_ok {B} (l : list (outcome B)) : outcome (list B) :=
  match l with
  | [] => Ok []
  | Ok x :: t => match all_ok t with Ok r => Ok (x :: r) | Err => Err | Panic => Panic end
  | Err :: _ => Err
  | Panic :: _ => Panic
  end.
Definition ok_map {B C} (f : B -> C) (o : outcome B) : outcome C :=
  match o with Ok x => Ok (f x) | Err => Err | Panic => Panic end.
Definition ok_bind {B C} (o : outcome B) (f : B -> outcome C) : outcome C :=
  match o with Ok x => f x | Err => Err | Panic => Panic end.

(* take.rs:156-199 *)
Definition take_sorted (fs : list (frag A)) (addrs : list N) : outcome (list A) :=
  ok_map (fun bs => map o_val (concat bs))
    (all_ok (map (fun '(fid, l) => match get_fragment fs fid with
                                   | None => Err
                                   | Some f => frag_take_rows f (map row_offset l) false
                                   end) (runs addrs))).

(* Vec::dedup *)
Fixpoint dedup_adj (l : list N) : list N :=
  match l with
  | x :: ((y :: _) as t) => if x =? y then dedup_adj t else x :: dedup_adj t
  | _ => l
  end.
(* take.rs:217-227 *)
Definition group_step (m : amap (list N)) (a : N) : amap (list N) :=
  let f := fragment_id a in
  put f (match get f m with Some l => l ++ [row_offset a] | None => [row_offset a] end) m.
Definition group_by_frag (l : list N) : amap (list N) := fold_left group_step l [].
(* take.rs:229-233: each group is removed from the map when its fragment is met *)
Fixpoint match_frags (fs : list (frag A)) (m : amap (list N)) : list (frag A * list N) :=
  match fs with
  | [] => []
  | f :: t => match get (fr_id f mod two32) m with
              | Some l => (f, l) :: match_frags t (del (fr_id f mod two32) m)
              | None => match_frags t m
              end
  end.
(* position of the first row carrying the address *)
Fixpoint addr_position (a : N) (rows : list (orow A)) : option nat :=
  match rows with
  | [] => None
  | r :: t => if match o_addr r with CVal v => v =? a | _ => false end then Some 0%nat else omap S (addr_position a t)
  end.
(* take.rs:200-289; an empty list of batches panics at `pop().unwrap()` *)
Definition take_unsorted (fs : list (frag A)) (addrs : list N) : outcome (list A) :=
  let parts := match_frags fs (group_by_frag (dedup_adj (sort_list addrs))) in
  ok_bind (all_ok (map (fun '(f, l) => frag_take_rows f l true) parts)) (fun bs =>
  match bs with
  | [] => Panic
  | _ => let one := concat bs in
         Ok (flat_map (fun a => match addr_position a one with
                                | Some i => match nth_error one i with Some r => [o_val r] | None => [] end
                                | None => [] end) addrs)
  end).

(* take.rs:109-312; with_row_address appends the requested addresses *)
Definition do_take_rows (fs : list (frag A)) (addrs : list N) : outcome (list A) :=
  match addrs with
  | [] => Ok []
  | a0 :: _ =>
      let s := check_row_addrs addrs in
      if as_contiguous s then
        match get_fragment fs (N.shiftr a0 32) with
        | None => Err
        | Some f => ok_map (map o_val)
                      (frag_read f (PRange (N.to_nat (row_offset a0)) (N.to_nat (row_offset (last addrs 0)) + 1)) false)
        end
      else if as_sorted s then take_sorted fs addrs
      else take_unsorted fs addrs
  end.
Definition do_take_with_addr (fs : list (frag A)) (addrs : list N) : outcome (list (A * N)) :=
  ok_bind (do_take_rows fs addrs) (fun vs =>
  if (length vs =? length addrs)%nat then Ok (combine vs addrs) else Err).

(* take.rs:27-106 *)
Definition take (fs : list (frag A)) (p : list nat) (offsets : list N) : outcome (list A) :=
  match offsets with
  | [] => Ok []
  | _ => match offsets_to_addrs fs p offsets with
         | None => Panic
         | Some addrs => do_take_rows fs addrs
         end
  end.

(* take.rs:530-548: row ids to addresses through the row id index *)
Definition take_by_ids (fs : list (frag A)) (idx : option (list piece)) (ids : list N) : outcome (list A) :=
  do_take_rows fs (match idx with
                   | Some ps => flat_map (fun id => match index_get ps id with Some a => [a] | None => [] end) ids
                   | None => ids
                   end).
End Read.

(* ---- dataset.rs:1083-1112: get_frags_from_ordered_ids ----
   The inner while loop, then the equality test.  The assertion that the ids are
   increasing is left out: the only caller passes sorted, de-duplicated ids. *)
Fixpoint skip_missing (fid : N) (ids : list N) : nat * list N :=
  match ids with
  | [] => (0%nat, [])
  | i :: t => if i <? fid then let '(n, r) := skip_missing fid t in (S n, r) else (0%nat, ids)
  end.
Fixpoint frags_from_ids {A} (fs : list (frag A)) (ids : list N) : list (option (frag A)) :=
  match fs with
  | [] => []
  | f :: t =>
      match ids with
      | [] => []
      | _ => let '(n, rest) := skip_missing (fr_id f mod two32) ids in
             repeat None n ++
             match rest with
             | i :: rest' => if i =? fr_id f mod two32 then Some f :: frags_from_ids t rest' else frags_from_ids t rest
             | [] => []
             end
      end
  end.

(* ---- dataset.rs:1115-1224: filter_addr_or_ids ----
   [todo] is next_addr followed by the iterator; [] = exhausted. *)
(* dataset.rs:1163-1176: keep rows of this fragment before [deleted] *)
Fixpoint keep_before (fid deleted : N) (todo : list N) : list (option N) * list N :=
  match todo with
  | [] => ([], [])
  | a :: t => if (fragment_id a =? fid) && (row_offset a <? deleted)
              then let '(o, r) := keep_before fid deleted t in (Some a :: o, r)
              else ([], todo)
  end.
(* dataset.rs:1162-1195: the loop over the sorted deletion vector *)
Fixpoint scan_dv (fid : N) (dels : list N) (todo : list N) : list (option N) * list N :=
  match dels with
  | [] => ([], todo)
  | d :: ds =>
      let '(o1, t1) := keep_before fid d todo in
      match t1 with
      | [] => (o1, [])
      | a :: t2 => if negb (fragment_id a =? fid) then (o1, t1)
                   else if row_offset a =? d
                        then match t2 with
                             | [] => (o1 ++ [None], [])
                             | _ => let '(o2, t3) := scan_dv fid ds t2 in (o1 ++ None :: o2, t3)
                             end
                        else let '(o2, t3) := scan_dv fid ds t1 in (o1 ++ o2, t3)
      end
  end.
(* dataset.rs:1200-1221: everything else of this fragment *)
Fixpoint rest_of_frag (fid : N) (keep : bool) (todo : list N) : list (option N) * list N :=
  match todo with
  | [] => ([], [])
  | a :: t => if fragment_id a =? fid
              then let '(o, r) := rest_of_frag fid keep t in ((if keep then Some a else None) :: o, r)
              else ([], todo)
  end.
Fixpoint filter_frags {A} (l : list (option (frag A) * N)) (todo : list N) : list (option N) :=
  match l with
  | [] => []
  | (Some f, fid) :: t =>
      let '(o1, t1) := scan_dv fid (match fr_dv f with Some d => dv_sorted_iter d | None => [] end) todo in
      let '(o2, t2) := rest_of_frag fid true t1 in
      o1 ++ o2 ++ match t2 with [] => [] | _ => filter_frags t t2 end
  | (None, fid) :: t =>
      let '(o2, t2) := rest_of_frag fid false todo in
      o2 ++ match t2 with [] => [] | _ => filter_frags t t2 end
  end.
(* None = panic (apply_inv on a list of the wrong length) *)
Definition filter_addr_or_ids {A} (fs : list (frag A)) (p : list nat) (ids addrs : list N) : option (list N) :=
  match addrs with
  | [] => Some []
  | _ =>
      let sorted := apply_slice p addrs in
      let fids := dedup_adj (map fragment_id sorted) in
      omap (fun kept => flat_map (fun '(x, m) => match m with Some _ => [x] | None => [] end) (combine ids kept))
           (apply_inv p (filter_frags (combine (frags_from_ids fs fids) fids) sorted))
  end.
(* dataset.rs:1226-1242 *)
Definition filter_deleted_addresses {A} (fs : list (frag A)) (p : list nat) (addrs : list N) : option (list N) :=
  filter_addr_or_ids fs p addrs addrs.
Definition filter_deleted_ids {A} (fs : list (frag A)) (idx : option (list piece)) (p : list nat) (ids : list N) : option (list N) :=
  filter_addr_or_ids fs p ids
    (match idx with
     | Some ps => flat_map (fun id => match index_get ps id with Some a => [a] | None => [] end) ids
     | None => ids
     end).

(* ---- manifest.rs:102-113, 303-323 ---- *)
(* fragment.rs (format) 271-285: the number of rows known from the metadata *)
Record fmeta := { fm_id : N; fm_physical : option nat; fm_deleted : option (option nat) }.
Definition fm_num_rows (f : fmeta) : option nat :=
  match fm_physical f, fm_deleted f with
  | Some len, None => Some len
  | Some len, Some (Some n) => Some (len - n)%nat
  | _, _ => None
  end.
Definition fm_rows (f : fmeta) : nat := match fm_num_rows f with Some n => n | None => 0%nat end.
Fixpoint fragment_offsets_from (start : nat) (fs : list fmeta) : list nat :=
  match fs with
  | [] => [start]
  | f :: t => start :: fragment_offsets_from (start + fm_rows f) t
  end.
(* compute_fragment_offsets: one more entry than fragments *)
Definition fragment_offsets (fs : list fmeta) : list nat := fragment_offsets_from 0 fs.

(* slice::binary_search on a non-decreasing slice: with equal entries any of
   their positions may be returned, so the result is a relation *)
Inductive bsearch_res := FoundAt (i : nat) | InsertAt (i : nat).
Definition bsearch_ok (l : list nat) (v : nat) (r : bsearch_res) : Prop :=
  match r with
  | FoundAt i => nth_error l i = Some v
  | InsertAt i => ~ In v l /\ (i <= length l)%nat /\ (forall j x, nth_error l j = Some x -> (j < i)%nat <-> (x < v)%nat)
  end.
(* manifest.rs:306-311; `idx - 1` *)
Definition start_index (r : bsearch_res) : nat := match r with FoundAt i => i | InsertAt i => (i - 1)%nat end.
Fixpoint collect_frags (fs : list fmeta) (offs : list nat) (start end_ : nat) : list (nat * fmeta) :=
  match fs, offs with
  | f :: ft, o :: ot => if ((end_ <=? o) || (o + fm_rows f <=? start))%nat then []
                        else (o, f) :: collect_frags ft ot start end_
  | _, _ => []
  end.
Definition fragments_by_offset_range (fs : list fmeta) (r : bsearch_res) (start end_ : nat) : list (nat * fmeta) :=
  let i := start_index r in
  collect_frags (skipn i fs) (skipn i (fragment_offsets fs)) start end_.
