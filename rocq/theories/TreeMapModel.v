(* Row addresses (rust/lance-core/src/utils/address.rs), row-id sets and row
   filters (rust/lance-core/src/utils/mask.rs).

   RoaringBitmap (crate `roaring`, not in /repo) is a strictly increasing list of
   u32 values with the crate's documented set operations. *)
From Coq Require Import List Arith NArith Bool Lia.
From Verif Require Import Lib AMap RowIdsModel SerdeModel.
Import ListNotations.
Local Open Scope N_scope.

(** * address.rs *)
(* 10: FRAGMENT_SIZE = 1 << 32 *)
Definition FRAGMENT_SIZE : N := N.shiftl 1 32.
Definition TOMBSTONE_FRAG : N := 4294967295.          (* 12 *)
Definition TOMBSTONE_ROW : N := 18446744073709551615. (* 14 *)
(* 20-22: ((fragment_id as u64) << 32) | row_offset *)
Definition new_from_parts (frag off : N) : N := N.lor (N.shiftl frag 32 mod two64) off.
(* 24-26 *)
Definition first_row (frag : N) : N := new_from_parts frag 0.
(* 28-30; fragment_id + 1 overflows u32 on the tombstone fragment = None *)
Definition address_range (frag : N) : option (N * N) :=
  if (frag + 1 <? two32) then Some (first_row frag, first_row (frag + 1)) else None.
(* 32-34: (self.0 >> 32) as u32 *)
Definition fragment_id (addr : N) : N := N.shiftr addr 32 mod two32.
(* 36-38: self.0 as u32 *)
Definition row_offset (addr : N) : N := addr mod two32.

(** * RowIdTreeMap, mask.rs:278-289 *)
Inductive sel := Full | Partial (rows : list N).
Definition tmap := amap sel.

(* RoaringBitmap::full *)
Definition u32_below (n : N) : list N := nrange 0 (N.to_nat n).
Notation bm_full := (u32_below two32).
(* RoaringBitmap::insert_range(lo..=hi): inserts nothing when lo > hi *)
Definition u32_range (lo hi : N) : list N := if hi <? lo then [] else nrange lo (N.to_nat (hi - lo + 1)).

(* mask.rs:384-397; second component: newly inserted *)
Definition t_insert (v : N) (m : tmap) : tmap * bool :=
  let f := fragment_id v in let r := row_offset v in
  match get f m with
  | None => (put f (Partial [r]) m, true)
  | Some Full => (m, false)
  | Some (Partial s) => (put f (Partial (s_insert r s)) m, negb (memN r s))
  end.

(* std::ops::Bound *)
Inductive bound := Included (n : N) | Excluded (n : N) | Unbounded.
(* 402-409: first value of the range *)
Definition lower (b : bound) : N :=
  match b with Included n => n | Excluded n => if n =? u64_max then n else n + 1 | Unbounded => 0 end.
(* 411-418: last value of the range; saturating_sub *)
Definition upper (b : bound) : N :=
  match b with Included n => n | Excluded n => n - 1 | Unbounded => u64_max end.

(* 427-441: one iteration of the loop *)
Definition ins_frag (f lo hi : N) (m : tmap) : tmap * N :=
  match get f m with
  | None => (put f (Partial (u32_range lo hi)) m, N.of_nat (length (u32_range lo hi)))
  | Some Full => (m, 0)
  | Some (Partial s) =>
      let s' := s_union (u32_range lo hi) s in
      (put f (Partial s') m, N.of_nat (length s' - length s))
  end.

(* 422-443; None: `start_high += 1` overflows after the last possible fragment
   (a panic with overflow checks, an endless loop without) *)
Fixpoint ins_loop (fuel : nat) (sh sl eh el cnt : N) (m : tmap) : option (tmap * N) :=
  if eh <? sh then Some (m, cnt) else
  match fuel with
  | O => None
  | S k =>
      let '(m', c) := ins_frag sh sl (if sh =? eh then el else u32_max) m in
      if sh =? u32_max then None else ins_loop k (sh + 1) 0 eh el (cnt + c) m'
  end.
Definition t_insert_range (b1 b2 : bound) (m : tmap) : option (tmap * N) :=
  let s := lower b1 in let e := upper b2 in
  ins_loop (S (N.to_nat (fragment_id e - fragment_id s))) (fragment_id s) (row_offset s) (fragment_id e) (row_offset e) 0 m.

(* 449-451, 454-456 *)
Definition t_insert_bitmap (f : N) (s : list N) (m : tmap) : tmap := put f (Partial s) m.
Definition t_insert_fragment (f : N) (m : tmap) : tmap := put f Full m.

(* 459-467 *)
Definition t_contains (v : N) (m : tmap) : bool :=
  match get (fragment_id v) m with
  | None => false
  | Some Full => true
  | Some (Partial s) => memN (row_offset v) s
  end.

(* 469-488 *)
Definition t_remove (v : N) (m : tmap) : tmap * bool :=
  let f := fragment_id v in let r := row_offset v in
  match get f m with
  | None => (m, false)
  | Some Full => (put f (Partial (s_diff bm_full [r])) m, true)
  | Some (Partial s) =>
      let s' := s_diff s [r] in
      (match s' with [] => del f m | _ => put f (Partial s') m end, memN r s)
  end.

(* 490-494 *)
Definition t_retain (fs : list N) (m : tmap) : tmap := filter (fun p => memN (fst p) fs) m.

(* 331-333 *)
Definition t_is_empty (m : tmap) : bool := match m with [] => true | _ => false end.

(* 338-346 *)
Fixpoint t_len (m : tmap) : option N :=
  match m with
  | [] => Some 0
  | (_, Full) :: _ => None
  | (_, Partial s) :: t => omap (fun n => N.of_nat (length s) + n) (t_len t)
  end.

(* 352-371 *)
Definition row_iter (p : N * sel) : option (list N) :=
  match snd p with Full => None | Partial s => Some (map (new_from_parts (fst p)) s) end.
Definition t_row_ids (m : tmap) : option (list N) := omap (@concat N) (sequence_opt (map row_iter m)).

(* 301-322 *)
Definition sel_union_all (l : list sel) : sel :=
  if existsb (fun s => match s with Full => true | _ => false end) l then Full
  else Partial (fold_right (fun s acc => match s with Partial b => s_union b acc | Full => acc end) [] l).

(* 555-574: entries are grouped by fragment, then each group is united *)
Definition push_entry (g : amap (list sel)) (p : N * sel) : amap (list sel) :=
  put (fst p) (match get (fst p) g with Some l => l ++ [snd p] | None => [snd p] end) g.
Definition t_union_all (ms : list tmap) : tmap :=
  map (fun p => (fst p, sel_union_all (snd p))) (fold_left push_entry (concat ms) []).

(* 586-604: the entry of the right side is ignored when the left is Partial and the right Full *)
Definition or_entry (m : tmap) (p : N * sel) : tmap :=
  match get (fst p) m with
  | None => put (fst p) (snd p) m
  | Some Full => m
  | Some (Partial s) => match snd p with Partial r => put (fst p) (Partial (s_union s r)) m | Full => m end
  end.
Definition t_or (a b : tmap) : tmap := fold_left or_entry b a.

(* 615-642 *)
Definition and_entry (rhs : tmap) (f : N) (l : sel) : sel :=
  match get f rhs, l with
  | None, _ => l
  | Some Full, _ => l
  | Some (Partial r), Partial s => Partial (s_inter s r)
  | Some (Partial r), Full => Partial r
  end.
Definition t_and (a b : tmap) : tmap :=
  filter (fun p => match snd p with Partial [] => false | _ => true end)
    (map (fun p => (fst p, and_entry b (fst p) (snd p))) (filter (fun p => has (fst p) b) a)).

(* 644-677 *)
Definition sub_entry (m : tmap) (p : N * sel) : tmap :=
  match get (fst p) m with
  | None => m
  | Some Full => match snd p with
                 | Full => del (fst p) m
                 | Partial r => put (fst p) (Partial (s_diff bm_full r)) m
                 end
  | Some (Partial s) => match snd p with
                        | Full => del (fst p) m
                        | Partial r => match s_diff s r with
                                       | [] => del (fst p) m
                                       | s' => put (fst p) (Partial s') m
                                       end
                        end
  end.
Definition t_sub (a b : tmap) : tmap := fold_left sub_entry b a.

(* 679-736 *)
Definition t_extend (ids : list N) (m : tmap) : tmap := fold_left (fun m v => fst (t_insert v m)) ids m.
Definition t_from_iter (ids : list N) : tmap := t_extend ids [].

(* 738-765 *)
Definition ext_entry (m : tmap) (p : N * sel) : tmap :=
  match get (fst p) m with
  | None => put (fst p) (snd p) m
  | Some Full => m
  | Some (Partial s) => match snd p with
                        | Full => put (fst p) Full m
                        | Partial r => put (fst p) (Partial (s_union s r)) m
                        end
  end.
Definition t_extend_maps (others : list tmap) (m : tmap) : tmap :=
  fold_left (fun m o => fold_left ext_entry o m) others m.

(** ** Serialization, mask.rs:497-553.  [ser]/[deser] stand for
    RoaringBitmap::serialize_into / deserialize_from. *)
Section Codec.
Variable ser : list N -> list N.
Variable deser : list N -> option (list N).

Definition t_serialized_size (m : tmap) : nat :=
  fold_left (fun acc p => acc + 8 + match snd p with Partial s => length (ser s) | Full => 0 end)%nat m 4%nat.

Definition entry_bytes (p : N * sel) : list N :=
  le_bytes 4 (fst p) ++
  match snd p with
  | Partial s => le_bytes 4 (N.of_nat (length (ser s))) ++ ser s
  | Full => le_bytes 4 0
  end.
Definition t_serialize (m : tmap) : list N := le_bytes 4 (N.of_nat (length m)) ++ flat_map entry_bytes m.

(* read_exact of n bytes *)
Definition take_bytes (n : nat) (l : list N) : option (list N * list N) :=
  if (length l <? n)%nat then None else Some (firstn n l, skipn n l).
Definition read_u32 (l : list N) : option (N * list N) :=
  match take_bytes 4 l with Some (a, r) => Some (of_le_bytes a, r) | None => None end.
Fixpoint read_entries (n : nat) (l : list N) (m : tmap) : option tmap :=
  match n with
  | O => Some m
  | S k =>
      obind (read_u32 l) (fun '(f, l1) =>
      obind (read_u32 l1) (fun '(sz, l2) =>
      if sz =? 0 then read_entries k l2 (put f Full m)
      else obind (take_bytes (N.to_nat sz) l2) (fun '(buf, l3) =>
           obind (deser buf) (fun s => read_entries k l3 (put f (Partial s) m)))))
  end.
Definition t_deserialize (l : list N) : option tmap :=
  obind (read_u32 l) (fun '(n, r) => read_entries (N.to_nat n) r []).
End Codec.

(** * RowIdMask, mask.rs:28-33 *)
Record mask := { allow : option tmap; block : option tmap }.
Definition all_rows : mask := {| allow := None; block := None |}.              (* 37-39 *)
Definition allow_nothing : mask := {| allow := Some []; block := None |}.      (* 42-47 *)
Definition from_allowed (a : tmap) : mask := {| allow := Some a; block := None |}. (* 50-55 *)
Definition from_block (b : tmap) : mask := {| allow := None; block := Some b |}.   (* 58-63 *)

(* 66-75 *)
Definition selected (m : mask) (v : N) : bool :=
  match allow m, block m with
  | None, None => true
  | Some a, None => t_contains v a
  | None, Some b => negb (t_contains v b)
  | Some a, Some b => t_contains v a && negb (t_contains v b)
  end.

(* 78-110; None = the panic on a mask with neither list *)
Fixpoint enum_filter (f : N -> bool) (i : nat) (l : list N) : list nat :=
  match l with [] => [] | x :: t => if f x then i :: enum_filter f (S i) t else enum_filter f (S i) t end.
Definition selected_indices (m : mask) (ids : list N) : option (list nat) :=
  match block m, allow m with
  | Some b, Some a => Some (enum_filter (fun v => negb (t_contains v b) && t_contains v a) 0 ids)
  | Some b, None => Some (enum_filter (fun v => negb (t_contains v b)) 0 ids)
  | None, Some a => Some (enum_filter (fun v => t_contains v a) 0 ids)
  | None, None => None
  end.

(* 113-128 *)
Definition also_block (m : mask) (b : tmap) : mask :=
  if t_is_empty b then m
  else match block m with
       | Some e => {| allow := allow m; block := Some (t_or e b) |}
       | None => {| allow := allow m; block := Some b |}
       end.
(* 131-145 *)
Definition also_allow (m : mask) (a : tmap) : mask :=
  match allow m with
  | Some e => {| allow := Some (t_or e a); block := block m |}
  | None => {| allow := None; block := block m |}
  end.
(* 209-218 *)
Definition mask_not (m : mask) : mask := {| allow := block m; block := allow m |}.
(* 220-241 *)
Definition both (f : tmap -> tmap -> tmap) (x y : option tmap) : option tmap :=
  match x, y with None, None => None | Some l, None => Some l | None, Some r => Some r | Some l, Some r => Some (f l r) end.
Definition mask_and (x y : mask) : mask :=
  {| block := both t_or (block x) (block y); allow := both t_and (allow x) (allow y) |}.
(* 243-266 *)
Definition mask_or (x y : mask) : mask :=
  {| block := both t_and (block x) (block y);
     allow := match allow x, allow y with Some l, Some r => Some (t_or l r) | _, _ => None end |}.

(* 159-206: two-element nullable binary array; slot 0 block list, slot 1 allow list *)
Definition into_arrow (ser : list N -> list N) (m : mask) : list (option (list N)) :=
  [omap (t_serialize ser) (block m); omap (t_serialize ser) (allow m)].
Definition from_arrow (deser : list N -> option (list N)) (a : list (option (list N))) : option mask :=
  match a with
  | [b; al] =>
      let dec o := match o with None => Some None | Some x => omap Some (t_deserialize deser x) end in
      match dec b, dec al with
      | Some b', Some a' => Some {| allow := a'; block := b' |}
      | _, _ => None
      end
  | _ => None
  end.

(** * rust/lance-table/src/rowids.rs:300-331: RowIdTreeMap::from(&RowIdSequence) *)
Definition add_range (a b : N) (m : tmap) : option tmap := omap fst (t_insert_range (Included a) (Excluded b) m).
Fixpoint remove_unset (a : N) (n : nat) (i : nat) (bm : bitmap) (m : tmap) : tmap :=
  match n with
  | O => m
  | S k => remove_unset (a + 1) k (S i) bm (if bm_get bm i then m else fst (t_remove a m))
  end.
Definition add_segment (m : option tmap) (s : segment) : option tmap :=
  obind m (fun m =>
  match s with
  | Range a b => add_range a b m
  | BMap a b bm => omap (remove_unset a (N.to_nat (b - a)) 0 bm) (add_range a b m)
  | Holes a b h => omap (fun m => fold_left (fun m v => fst (t_remove v m)) (ea_iter h) m) (add_range a b m)
  | Sorted x | Arr x => Some (t_extend (ea_iter x) m)
  end).
Definition t_of_seq (q : rowseq) : option tmap := fold_left add_segment q (Some []).
