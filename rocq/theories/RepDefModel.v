(* Repetition and definition levels of file format 2.1: rust/lance-encoding/src/repdef.rs.
   Simplifications: levels, offsets and positions are natural numbers (u16, i64 and usize do not
   overflow); buffers of levels that are overwritten while they are read are functions from lists to
   lists, the writer never being ahead of the reader; assertions that are only in debug builds are
   left out. None is a panic. *)
From Coq Require Import List Arith Bool Lia.
From Verif Require Import Lib.
Import ListNotations.
Local Open Scope nat_scope.

(* ---- layers and builders ---- *)
(* SpecialOffset 768-785 *)
Inductive special := NullList (p : nat) | EmptyList (p : nat).
Definition sp_pos (s : special) : nat := match s with NullList p => p | EmptyList p => p end.
Definition sp_move (k : nat) (s : special) : special := match s with NullList p => NullList (p + k) | EmptyList p => EmptyList (p + k) end.
(* RawRepDef 101-160; num_values of offsets is their number less one *)
Inductive layer :=
| LOffsets (offsets : list nat) (specials : list special) (valid : option (list bool)) (has_empty : bool)
| LValidity (valid : option (list bool)) (n : nat)
| LFsl (valid : option (list bool)) (dim n : nat).
Definition l_valid (l : layer) : option (list bool) := match l with LOffsets _ _ v _ => v | LValidity v _ => v | LFsl v _ _ => v end.
Definition l_values (l : layer) : nat := match l with LOffsets o _ _ _ => length o - 1 | LValidity _ n => n | LFsl _ _ n => n end.
Definition is_some {A} (o : option A) : bool := match o with Some _ => true | None => false end.
(* RepDefBuilder 791-801 *)
Record builder := { b_layers : list layer; b_len : option nat }.
Definition new_builder : builder := {| b_layers := []; b_len := None |}.
(* the assertions of check_validity_len 804-809, add_fsl 872-874 and check_offset_len 884-895 *)
Definition len_is (b : builder) (n : nat) : bool := match b_len b with Some k => k =? n | None => true end.
Definition push (b : builder) (l : layer) (len : nat) : builder := {| b_layers := b_layers b ++ [l]; b_len := Some len |}.
(* add_validity_bitmap 854-860 and add_no_null 863-869 *)
Definition add_validity (v : option (list bool)) (n : nat) (b : builder) : option builder :=
  if len_is b n then Some (push b (LValidity v n) n) else None.
(* add_fsl 871-882 *)
Definition add_fsl (v : option (list bool)) (dim n : nat) (b : builder) : option builder :=
  if len_is b n then Some (push b (LFsl v dim n) (n * dim)) else None.
(* the loops of add_offsets 912-939 and 960-987: offsets from [last], special lists, whether any is empty *)
Fixpoint norm_nulls (idx last : nat) (os : list nat) (vs : list bool) : list nat * list special * bool :=
  match os, vs with
  | a :: ((b :: _) as t), v :: vs' =>
      if v then if b - a =? 0 then let '(o, s, _) := norm_nulls (S idx) last t vs' in (last :: o, EmptyList idx :: s, true)
                else let '(o, s, e) := norm_nulls (S idx) (last + (b - a)) t vs' in ((last + (b - a)) :: o, s, e)
      else let '(o, s, e) := norm_nulls (S idx) last t vs' in (last :: o, NullList idx :: s, e)
  | _, _ => ([], [], false)
  end.
Fixpoint norm_valid (idx last : nat) (os : list nat) : list nat * list special * bool :=
  match os with
  | a :: ((b :: _) as t) =>
      let '(o, s, e) := norm_valid (S idx) (last + (b - a)) t in
      if b - a =? 0 then ((last + (b - a)) :: o, EmptyList idx :: s, true) else ((last + (b - a)) :: o, s, e)
  | _ => ([], [], false)
  end.
(* add_offsets 897-1000; what it returns tells the caller to drop the items of null lists *)
Definition add_offsets (os : list nat) (v : option (list bool)) (b : builder) : option builder :=
  let '(o, s, e) := match v with Some vs => norm_nulls 0 0 os vs | None => norm_valid 0 0 os end in
  let o := 0 :: o in
  if len_is b (length o - 1) then Some (push b (LOffsets o s v e) (last o 0)) else None.
(* is_empty 817-821, has_nulls 832-846 (lists do not count), has_offsets 847-851 *)
Definition b_empty (b : builder) : bool := forallb (fun l => match l with LValidity None _ => true | _ => false end) (b_layers b).
Definition b_nulls (b : builder) : bool := existsb (fun l => match l with LValidity (Some _) _ => true | LFsl (Some _) _ _ => true | _ => false end) (b_layers b).
Definition b_offsets (b : builder) : bool := existsb (fun l => match l with LOffsets _ _ _ _ => true | _ => false end) (b_layers b).
(* concat_layers 1011-1184: the layers are of the same kind *)
Definition bits (l : layer) : list bool := match l_valid l with Some v => v | None => repeat true (l_values l) end.
Definition l_offsets (l : layer) : list nat := match l with LOffsets o _ _ _ => o | _ => [] end.
Definition l_specials (l : layer) : list special := match l with LOffsets _ s _ _ => s | _ => [] end.
Definition l_empty (l : layer) : bool := match l with LOffsets _ _ _ e => e | _ => false end.
Definition concat_layers (ls : list layer) : layer :=
  let v := if existsb (fun l => is_some (l_valid l)) ls then Some (flat_map bits ls) else None in
  match last ls (LValidity None 0) with
  | LValidity _ _ => LValidity v (sumn (map l_values ls))
  | LFsl _ d _ => LFsl v d (sumn (map l_values ls))
  | LOffsets _ _ _ _ =>
      let '(o, s) := fold_left (fun '(o, s) l => (o ++ map (fun x => x + last o 0) (tl (l_offsets l)), s ++ map (sp_move (length o - 1)) (l_specials l))) ls ([0], []) in
      LOffsets o s v (existsb l_empty ls)
  end.

(* ---- serializing ---- *)
(* DefinitionInterpretation 459-503 *)
Inductive meaning := AllValidItem | AllValidList | NullableItem | NullableList | EmptyableList | NullableAndEmptyableList.
Definition num_def_levels (m : meaning) : nat :=
  match m with AllValidItem => 0 | AllValidList => 0 | NullableItem => 1 | NullableList => 1 | EmptyableList => 1 | NullableAndEmptyableList => 2 end.
Definition m_all_valid (m : meaning) : bool := match m with AllValidItem | AllValidList | EmptyableList => true | _ => false end.
Definition m_list (m : meaning) : bool := match m with AllValidItem | NullableItem => false | _ => true end.
(* SpecialRecord 423-446 *)
Record srec := { s_pos : nat; s_def : nat; s_rep : nat }.
(* SerializerContext 538-572; last_offsets and last_offsets_full are set together *)
Record ctx := { c_off : option (list nat * list nat); c_specials : list srec; c_meaning : list meaning; c_rep : list nat; c_def : list nat;
                c_cur_rep : nat; c_cur_def : nat; c_mult : nat; c_nulls : bool }.
Definition new_ctx (len : nat) (has_nulls has_offsets : bool) : ctx :=
  {| c_off := None; c_specials := []; c_meaning := []; c_rep := if has_offsets then repeat 0 len else []; c_def := if has_nulls then repeat 0 len else [];
     c_cur_rep := 1; c_cur_def := 1; c_mult := 1; c_nulls := false |}.
(* an assignment to an element, which panics beyond the end *)
Fixpoint set_at {A} (i : nat) (x : A) (l : list A) : option (list A) :=
  match l, i with [], _ => None | _ :: t, 0 => Some (x :: t) | y :: t, S i => omap (cons y) (set_at i x t) end.
(* the loops over windows of record_offsets 607-639: the new last_offsets and last_offsets_full, and the levels *)
Fixpoint walk (off : option (list nat * list nat)) (rep_level : nat) (os : list nat) (empties : nat) (rep : list nat) : option (list nat * list nat * list nat) :=
  match os with
  | a :: ((b :: _) as t) =>
      let at_a := match off with Some (lo, lf) => match nth_error lo a, nth_error lf a with Some x, Some y => Some (x, y) | _, _ => None end | None => Some (a, a) end in
      obind at_a (fun '(x, y) =>
      let rest r e := omap (fun '(lo, lf, r) => (x :: lo, (y + empties) :: lf, r)) (walk off rep_level t e r) in
      if a =? b then rest rep (S empties) else obind (set_at x rep_level rep) (fun r => rest r empties))
  | _ => Some ([], [], rep)
  end.
(* the merge of special records 641-689: [fuel] is num_combined_specials, [ins] new_inserted *)
Fixpoint merge_specials (fuel : nat) (full : list nat) (null_level empty_level rep_level ins : nat) (old : list srec) (new : list special) : option (list srec) :=
  match fuel with
  | 0 => Some []
  | S fuel =>
      let take_old o old' := omap (cons {| s_pos := s_pos o + ins; s_def := s_def o; s_rep := s_rep o |}) (merge_specials fuel full null_level empty_level rep_level ins old' new) in
      let take_new s new' p := omap (cons {| s_pos := p; s_def := match s with EmptyList _ => empty_level | NullList _ => null_level end; s_rep := rep_level |})
                                    (merge_specials fuel full null_level empty_level rep_level (S ins) old new') in
      match old, new with
      | o :: old', s :: new' => obind (nth_error full (sp_pos s)) (fun p => if s_pos o + ins <? p then take_old o old' else take_new s new' p)
      | o :: old', [] => take_old o old'
      | [], s :: new' => obind (nth_error full (sp_pos s)) (take_new s new')
      | [], [] => None
      end
  end.
(* record_offsets 581-690 *)
Definition record_offsets (c : ctx) (os : list nat) (sps : list special) (v : option (list bool)) (has_empty : bool) : option ctx :=
  if negb (c_mult c =? 1) then None else
  let d := c_cur_def c in
  let '(m, null_level, empty_level) :=
    match is_some v, has_empty with
    | true, true => (NullableAndEmptyableList, d, d + 1)
    | true, false => (NullableList, d, 0)
    | false, true => (EmptyableList, 0, d)
    | false, false => (AllValidList, 0, 0)
    end in
  obind (walk (c_off c) (c_cur_rep c) os 0 (c_rep c)) (fun '(lo, lf, rep) =>
  omap (fun sp => {| c_off := Some (lo, lf); c_specials := sp; c_meaning := c_meaning c ++ [m]; c_rep := rep; c_def := c_def c;
                     c_cur_rep := S (c_cur_rep c); c_cur_def := d + num_def_levels m; c_mult := c_mult c; c_nulls := c_nulls c |})
       (merge_specials (length (c_specials c) + length sps) lf null_level empty_level (c_cur_rep c) 0 (c_specials c) sps)).
(* the three ways of do_record_validity 692-729 *)
Definition fill (s e x : nat) (l : list nat) : option (list nat) :=
  if (s <=? e) && (e <=? length l) then Some (firstn s l ++ repeat x (e - s) ++ skipn e l) else None.
Fixpoint fill_windows (mult x : nat) (lo : list nat) (vs : list bool) (l : list nat) : option (list nat) :=
  match lo, vs with
  | a :: ((b :: _) as t), v :: vs' => if v then fill_windows mult x t vs' l else obind (fill (a * mult) (b * mult) x l) (fill_windows mult x t vs')
  | _, _ => Some l
  end.
Fixpoint mark (x : nat) (l : list nat) (vs : list bool) : list nat :=
  match l, vs with d :: t, v :: vs' => (if v then d else x) :: mark x t vs' | _, _ => l end.
Definition do_record_validity (c : ctx) (vs : list bool) (x : nat) : option (list nat) :=
  match c_def c with
  | [] => None
  | _ =>
      match c_off c with
      | Some (lo, _) => fill_windows (c_mult c) x lo vs (c_def c)
      | None => Some (mark x (c_def c) (flat_map (fun v => repeat v (c_mult c)) vs))
      end
  end.
(* record_validity_buf 731-738, with record_fsl 744-747 for a multiplier *)
Definition record_validity (c : ctx) (mult : nat) (v : option (list bool)) : option ctx :=
  let set d m n cur := {| c_off := c_off c; c_specials := c_specials c; c_meaning := c_meaning c ++ [m]; c_rep := c_rep c; c_def := d;
                          c_cur_rep := c_cur_rep c; c_cur_def := cur; c_mult := c_mult c * mult; c_nulls := n |} in
  match v with
  | Some vs =>
      omap (fun d => set d NullableItem true (S (c_cur_def c)))
           (do_record_validity {| c_off := c_off c; c_specials := c_specials c; c_meaning := c_meaning c; c_rep := c_rep c; c_def := c_def c;
                                  c_cur_rep := c_cur_rep c; c_cur_def := c_cur_def c; c_mult := c_mult c * mult; c_nulls := true |} vs (c_cur_def c))
  | None => Some (set (c_def c) AllValidItem (c_nulls c) (c_cur_def c))
  end.
Definition record (c : ctx) (l : layer) : option ctx :=
  match l with
  | LValidity v _ => record_validity c 1 v
  | LOffsets o s v e => record_offsets c o s v e
  | LFsl v d _ => record_validity c d v
  end.
(* SerializedRepDefs 163-220 *)
Record levels := { r_rep : option (list nat); r_def : option (list nat); r_meaning : list meaning }.
(* collapse_specials 237-333: [acc] is new_rep and new_def backwards; [sp] tells that the last one is special *)
Fixpoint collapse (fuel idx : nat) (specials : list srec) (rep : list nat) (def : option (list nat)) (rev_rep rev_def : list nat) (sp : bool) : option (list nat * list nat) :=
  match fuel with
  | 0 => Some (rev rev_rep, rev rev_def)
  | S fuel =>
      let item :=
        match rep, def with
        | r :: rep', Some (d :: def') => Some (r, d, rep', Some def')
        | r :: rep', None => Some (r, 0, rep', None)
        | _, _ => None
        end in
      let put_item :=
        obind item (fun '(r, d, rep', def') =>
        match sp, rev_rep with
        | true, r0 :: rev' => collapse fuel (S idx) specials rep' def' (r0 :: r :: rev') (d :: rev_def) false
        | _, _ => collapse fuel (S idx) specials rep' def' (r :: rev_rep) (d :: rev_def) false
        end) in
      match specials with
      | s :: t => if s_pos s =? idx then collapse fuel (S idx) t rep def (s_rep s :: rev_rep) (s_def s :: rev_def) true else put_item
      | [] => put_item
      end
  end.
Definition collapse_specials (specials : list srec) (rep def : option (list nat)) (m : list meaning) : option levels :=
  match specials with
  | [] => Some {| r_rep := rep; r_def := def; r_meaning := m |}
  | _ => obind rep (fun rep =>
         omap (fun '(r, d) => {| r_rep := Some r; r_def := Some d; r_meaning := m |}) (collapse (length rep + length specials) 0 specials rep def [] [] false))
  end.
(* serialize 1187-1231, with build 749-766 *)
Definition record_all (c : ctx) (ls : list layer) : option ctx := fold_left (fun c l => obind c (fun c => record c l)) ls (Some c).
Definition serialize (bs : list builder) : option levels :=
  match bs with
  | [] => None
  | b0 :: _ =>
      if forallb b_empty bs then Some {| r_rep := None; r_def := None; r_meaning := map (fun _ => AllValidItem) (b_layers b0) |} else
      obind (sequence_opt (map b_len bs)) (fun lens =>
      obind (sequence_opt (map (fun i => omap concat_layers (sequence_opt (map (fun b => nth_error (b_layers b) i) bs))) (seq 0 (length (b_layers b0))))) (fun layers =>
      obind (record_all (new_ctx (sumn lens) (existsb b_nulls bs) (existsb b_offsets bs)) (rev layers)) (fun c =>
      collapse_specials (c_specials c) (if 1 <? c_cur_rep c then Some (c_rep c) else None) (if c_nulls c then Some (c_def c) else None) (c_meaning c))))
  end.

(* ---- unraveling ---- *)
(* RepDefUnraveler 1238-1303 *)
Record unraveler := { u_rep : option (list nat); u_def : option (list nat); u_l2r : list nat; u_meaning : list meaning; u_def_cmp : nat; u_rep_cmp : nat; u_layer : nat }.
Fixpoint levels_to_rep (k : nat) (ms : list meaning) : list nat :=
  match ms with
  | [] => []
  | AllValidItem :: t | AllValidList :: t => levels_to_rep k t
  | NullableItem :: t => k :: levels_to_rep k t
  | NullableList :: t | EmptyableList :: t => S k :: levels_to_rep (S k) t
  | NullableAndEmptyableList :: t => S k :: S k :: levels_to_rep (S k) t
  end.
Definition new_unraveler (l : levels) : unraveler :=
  {| u_rep := r_rep l; u_def := r_def l; u_l2r := 0 :: levels_to_rep 0 (r_meaning l); u_meaning := r_meaning l; u_def_cmp := 0; u_rep_cmp := 0; u_layer := 0 |}.
Definition u_all_valid (u : unraveler) : option bool := omap m_all_valid (nth_error (u_meaning u) (u_layer u)).
(* skip_validity 1457-1462 *)
Definition skip_validity (u : unraveler) : unraveler :=
  {| u_rep := u_rep u; u_def := u_def u; u_l2r := u_l2r u; u_meaning := u_meaning u; u_def_cmp := u_def_cmp u; u_rep_cmp := u_rep_cmp u; u_layer := S (u_layer u) |}.
(* unravel_validity 1465-1485: the levels not visible at this repetition are left out *)
Fixpoint visible (l2r : list nat) (rep_cmp def_cmp : nat) (def : list nat) : option (list bool) :=
  match def with
  | [] => Some []
  | x :: t => obind (nth_error l2r x) (fun r => omap (fun vs => if r <=? rep_cmp then (x <=? def_cmp) :: vs else vs) (visible l2r rep_cmp def_cmp t))
  end.
Definition unravel_validity (u : unraveler) : option (unraveler * list bool) :=
  obind (u_def u) (fun def =>
  omap (fun vs => ({| u_rep := u_rep u; u_def := u_def u; u_l2r := u_l2r u; u_meaning := u_meaning u; u_def_cmp := S (u_def_cmp u); u_rep_cmp := u_rep_cmp u; u_layer := S (u_layer u) |}, vs))
       (visible (u_l2r u) (u_rep_cmp u) (u_def_cmp u) def)).
(* decimate 1487-1516 *)
Fixpoint every (fuel dim : nat) (l : list nat) : list nat :=
  match fuel, l with S fuel, x :: _ => x :: every fuel dim (skipn dim l) | _, _ => [] end.
Definition decimate (dim : nat) (u : unraveler) : option unraveler :=
  match u_rep u with
  | Some _ => None
  | None => Some {| u_rep := None; u_def := option_map (fun d => every (length d) dim d) (u_def u); u_l2r := u_l2r u; u_meaning := u_meaning u;
                    u_def_cmp := u_def_cmp u; u_rep_cmp := u_rep_cmp u; u_layer := u_layer u |}
  end.
(* the loop with definition levels of unravel_offsets 1385-1425: offsets and validity pushed, levels kept, the length at the end *)
Fixpoint unr_def (null_level empty_level max_level curlen : nat) (rep def : list nat) : list nat * list bool * (list nat * list nat) * nat :=
  match rep, def with
  | r :: rep', d :: def' =>
      match r with
      | 0 => unr_def null_level empty_level max_level (S curlen) rep' def'
      | S r =>
          let keep cur o v := let '(os, vs, (rs, ds), n) := unr_def null_level empty_level max_level cur rep' def' in (o ++ os, v ++ vs, (r :: rs, d :: ds), n) in
          if d =? 0 then keep (S curlen) [curlen] [true]
          else if max_level <? d then keep curlen [] []
          else if d =? null_level then keep curlen [curlen] [false]
          else if d =? empty_level then keep curlen [curlen] [true]
          else keep (S curlen) [curlen] [true]
      end
  | _, _ => ([], [], ([], []), curlen)
  end.
(* the loop without definition levels 1430-1445 *)
Fixpoint unr_rep (curlen : nat) (rep : list nat) : list nat * list nat :=
  match rep with
  | [] => ([], [])
  | 0 :: t => unr_rep (S curlen) t
  | S r :: t => let '(os, rs) := unr_rep (S curlen) t in (curlen :: os, r :: rs)
  end.
(* unravel_offsets 1324-1455: [offsets] are those of the unravelers before; the validity pushed is returned *)
Definition unravel_offsets (u : unraveler) (offsets : list nat) : option (unraveler * list nat * list bool) :=
  obind (u_rep u) (fun rep =>
  let d := u_def_cmp u in
  obind (nth_error (u_meaning u) (u_layer u)) (fun m =>
  obind (match m with
         | NullableList => Some (d + 1, d + 1, 0)
         | EmptyableList => Some (d + 1, 0, d + 1)
         | NullableAndEmptyableList => Some (d + 2, d + 1, d + 2)
         | AllValidList => Some (d, 0, 0)
         | _ => None
         end) (fun '(cmp, null_level, empty_level) =>
  let curlen := last offsets 0 in
  let before := removelast offsets in
  let next r df := {| u_rep := Some r; u_def := df; u_l2r := u_l2r u; u_meaning := u_meaning u; u_def_cmp := cmp; u_rep_cmp := S (u_rep_cmp u); u_layer := S (u_layer u) |} in
  match u_def u with
  | Some def =>
      if length rep =? length def then
        let '(os, vs, (rs, ds), n) := unr_def null_level empty_level (Nat.max null_level empty_level) curlen rep def in
        Some (next rs (Some ds), before ++ os ++ [n], vs)
      else None
  | None =>
      let '(os, rs) := unr_rep curlen rep in
      let all := before ++ os ++ [curlen + length rep] in
      Some (next (firstn (length all - 1) (rs ++ skipn (length rs) rep)) None, all, repeat true (length os))
  end))).

(* ---- the unravelers of several pages, CompositeRepDefUnraveler 1532-1604 ---- *)
Definition all_valid_layer (us : list unraveler) : option bool := omap (forallb (fun b => b)) (sequence_opt (map u_all_valid us)).
Definition c_unravel_validity (us : list unraveler) : option (list unraveler * option (list bool)) :=
  obind (all_valid_layer us) (fun all =>
  if all then Some (map skip_validity us, None)
  else omap (fun xs => (map fst xs, Some (flat_map snd xs))) (sequence_opt (map unravel_validity us))).
Fixpoint c_offsets (us : list unraveler) (offsets : list nat) : option (list unraveler * list nat * list bool) :=
  match us with
  | [] => Some ([], offsets, [])
  | u :: t => obind (unravel_offsets u offsets) (fun '(u', o, v) => omap (fun '(us', o', v') => (u' :: us', o', v ++ v')) (c_offsets t o))
  end.
Definition c_unravel_offsets (us : list unraveler) : option (list unraveler * list nat * option (list bool)) :=
  obind (all_valid_layer us) (fun all => omap (fun '(us', o, v) => (us', o, if all then None else Some v)) (c_offsets us [])).

(* ---- the reader: innermost layer first ---- *)
(* restore_validity, restore_fsl (logical/primitive.rs 3076-3117), the struct and list decode tasks (struct.rs 699-703, list.rs 1428-1450) *)
Inductive kind := KItem | KFsl (dim : nat) | KList.
Inductive got := GValid (v : option (list bool)) | GList (offsets : list nat) (v : option (list bool)).
Fixpoint read_layers (ks : list kind) (us : list unraveler) : option (list got) :=
  match ks with
  | [] => Some []
  | KItem :: ks' => obind (c_unravel_validity us) (fun '(us', v) => omap (cons (GValid v)) (read_layers ks' us'))
  | KFsl dim :: ks' => obind (sequence_opt (map (decimate dim) us)) (fun us => obind (c_unravel_validity us) (fun '(us', v) => omap (cons (GValid v)) (read_layers ks' us')))
  | KList :: ks' => obind (c_unravel_offsets us) (fun '(us', o, v) => omap (cons (GList o v)) (read_layers ks' us'))
  end.
