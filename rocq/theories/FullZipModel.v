(* The full-zip layout of file format 2.1: control words (rust/lance-encoding/src/repdef.rs 1606-2309), writing
   (encodings/logical/primitive.rs 4013-4265) and reading (1780-2640) of pages, with utils/bytepack.rs.
   Simplifications: values are byte strings that no compressor changes; a page keeps its data and its repetition
   index as two byte lists, positions are relative to them, and reading a byte range is instantaneous; sizes
   and positions are natural numbers; offsets that the variable decoder makes are kept as numbers, and starts of
   offsets as counts of them; shifts by the full width and assertions of debug builds are those of release
   builds. None is a panic. *)
From Coq Require Import List Arith NArith Bool Lia.
From Verif Require Import Lib SerdeModel RepDefModel.
Import ListNotations.
Local Open Scope nat_scope.

(* ---- bits: rust/lance-core/src/utils/bit.rs ---- *)
(* LOG_TABLE_256 26-35 *)
Definition log_table : list N :=
  [0; 1; 2; 2; 3; 3; 3; 3; 4; 4; 4; 4; 4; 4; 4; 4; 5; 5; 5; 5; 5; 5; 5; 5; 5; 5; 5; 5; 5; 5; 5; 5;
   6; 6; 6; 6; 6; 6; 6; 6; 6; 6; 6; 6; 6; 6; 6; 6; 6; 6; 6; 6; 6; 6; 6; 6; 6; 6; 6; 6; 6; 6; 6; 6;
   7; 7; 7; 7; 7; 7; 7; 7; 7; 7; 7; 7; 7; 7; 7; 7; 7; 7; 7; 7; 7; 7; 7; 7; 7; 7; 7; 7; 7; 7; 7; 7;
   7; 7; 7; 7; 7; 7; 7; 7; 7; 7; 7; 7; 7; 7; 7; 7; 7; 7; 7; 7; 7; 7; 7; 7; 7; 7; 7; 7; 7; 7; 7; 7;
   8; 8; 8; 8; 8; 8; 8; 8; 8; 8; 8; 8; 8; 8; 8; 8; 8; 8; 8; 8; 8; 8; 8; 8; 8; 8; 8; 8; 8; 8; 8; 8;
   8; 8; 8; 8; 8; 8; 8; 8; 8; 8; 8; 8; 8; 8; 8; 8; 8; 8; 8; 8; 8; 8; 8; 8; 8; 8; 8; 8; 8; 8; 8; 8;
   8; 8; 8; 8; 8; 8; 8; 8; 8; 8; 8; 8; 8; 8; 8; 8; 8; 8; 8; 8; 8; 8; 8; 8; 8; 8; 8; 8; 8; 8; 8; 8;
   8; 8; 8; 8; 8; 8; 8; 8; 8; 8; 8; 8; 8; 8; 8; 8; 8; 8; 8; 8; 8; 8; 8; 8; 8; 8; 8; 8; 8; 8; 8; 8]%N.
(* log_2_ceil 40-62; 0 stands for the assertion that the value is positive, which callers check *)
Definition log_2_ceil (v : N) : N :=
  let at_ x := nth (N.to_nat x) log_table 0%N in
  let upper := N.shiftr v 16 in
  if (upper =? 0)%N then
    let third := N.shiftr v 8 in
    if (third =? 0)%N then at_ v else (at_ third + 8)%N
  else
    let first := N.shiftr upper 8 in
    if (first =? 0)%N then (16 + at_ upper)%N else (24 + at_ first)%N.
(* get_mask, repdef.rs 1766-1769, on u16 *)
Definition get_mask (w : N) : N := (2 ^ (w mod 16) - 1)%N.

(* ---- control words: repdef.rs ---- *)
(* ControlWordDesc 1799-1804 *)
Record desc := { d_new : bool; d_vis : bool; d_valid : bool }.
Definition word_size (total : N) : nat := if (total <=? 8)%N then 1 else if (total <=? 16)%N then 2 else 4.
Definition trunc (k : nat) (x : N) : N := (x mod 2 ^ (8 * N.of_nat k))%N.
(* ControlWordIterator 1789-1797 with its iterators 1611-1764: the number is the bytes of a word *)
Inductive cwi :=
| CBinary (k : nat) (xs : list (N * N)) (def_width max_rep max_vis rep_mask def_mask : N)
| CUnary (k : nat) (xs : list N) (mask bits_rep bits_def max_rep : N)
| CNilary (n : nat).
(* build_control_word_iterator 1872-2000; the widths are also what the iterators keep as bits_rep and bits_def *)
Definition rd_width (m : N) : N := if (m =? 0)%N then 0%N else log_2_ceil m.
Definition rd_mask (m : N) : N := if (m =? 0)%N then 0%N else get_mask (rd_width m).
Definition build_cw (rep : option (list N)) (max_rep : N) (def : option (list N)) (max_def max_vis : N) (len : nat) : cwi :=
  let total := (rd_width max_rep + rd_width max_def)%N in
  match rep, def with
  | Some r, Some d => CBinary (word_size total) (combine r d) (rd_width max_def) max_rep max_vis (rd_mask max_rep) (rd_mask max_def)
  | Some r, None => CUnary (word_size total) r (rd_mask max_rep) total 0%N max_rep
  | None, Some d => CUnary (word_size total) d (rd_mask max_def) 0%N total 0%N
  | None, None => CNilary len
  end.
(* bits_rep and bits_def 1844-1869, bytes_per_word 1832-1842, has_repetition 1822-1830 *)
Definition bits_of (c : cwi) (max_rep max_def : N) : N * N :=
  match c with CBinary _ _ _ _ _ _ _ => (rd_width max_rep, rd_width max_def) | CUnary _ _ _ br bd _ => (br, bd) | CNilary _ => (0, 0)%N end.
Definition cw_bytes (c : cwi) : nat := match c with CBinary k _ _ _ _ _ _ => k | CUnary k _ _ _ _ _ => k | CNilary _ => 0 end.
Definition cw_has_rep (c : cwi) : bool := match c with CBinary _ _ _ _ _ _ _ => true | CUnary _ _ _ br _ _ => (0 <? br)%N | CNilary _ => false end.
(* append_next of each iterator 1624-1764, called until it returns None; at the end the one of two bytes
   unwraps None (1718) *)
Definition binary_next (k : nat) (dw max_rep max_vis rm dm : N) (x : N * N) : list N * desc :=
  let rep := trunc k (N.shiftl (trunc k (N.land (fst x) rm)) (dw mod (8 * N.of_nat k))) in
  (le_bytes k (rep + trunc k (N.land (snd x) dm)), {| d_new := (fst x =? max_rep)%N; d_vis := (snd x <=? max_vis)%N; d_valid := (snd x =? 0)%N |}).
Definition unary_next (k : nat) (mask bits_def max_rep : N) (x : N) : list N * desc :=
  let y := if k =? 1 then x else N.land x mask in
  (le_bytes k (trunc k (N.land x mask)), {| d_new := (max_rep =? 0)%N || (y =? max_rep)%N; d_vis := true; d_valid := (y =? 0)%N || (bits_def =? 0)%N |}).
Definition cw_all (c : cwi) : option (list (list N * desc)) :=
  match c with
  | CBinary k xs dw mr mv rm dm => Some (map (binary_next k dw mr mv rm dm) xs)
  | CUnary k xs m _ bd mr => if k =? 2 then None else Some (map (unary_next k m bd mr) xs)
  | CNilary n => Some (repeat ([], {| d_new := true; d_vis := true; d_valid := true |}) n)
  end.
(* ControlWordParser 2006-2021, new 2268-2309: has repetition, has definition, bytes of a word, bits to shift, mask *)
Record parser := { p_rep : bool; p_def : bool; p_bytes : nat; p_shift : N; p_mask : N }.
Definition new_parser (bits_rep bits_def : N) : parser :=
  let r := (0 <? bits_rep)%N in let d := (0 <? bits_def)%N in
  {| p_rep := r; p_def := d; p_bytes := if r || d then word_size (bits_rep + bits_def)%N else 0; p_shift := bits_def; p_mask := get_mask bits_def |}.
(* the word at the front: parse_both 2024-2055 and parse_one 2109-2126; bytes beyond the end panic *)
Definition front_word (p : parser) (src : list N) : option N := if length src <? p_bytes p then None else Some (of_le_bytes (firstn (p_bytes p) src)).
Definition word_rep (p : parser) (w : N) : N := if p_def p then trunc 2 (N.shiftr w (p_shift p)) else trunc 2 w.
Definition word_def (p : parser) (w : N) : N := if p_rep p then trunc 2 (N.land w (trunc (p_bytes p) (p_mask p))) else trunc 2 w.
(* parse 2192-2211: what is pushed to the levels *)
Definition parse (p : parser) (src : list N) : option (list nat * list nat) :=
  omap (fun w => (if p_rep p then [N.to_nat (word_rep p w)] else [], if p_def p then [N.to_nat (word_def p w)] else [])) (front_word p src).
(* parse_desc 2227-2265 with parse_desc_both, parse_rep_desc_one, parse_def_desc_one *)
Definition parse_desc (p : parser) (src : list N) (max_rep max_vis : N) : option desc :=
  omap (fun w => {| d_new := if p_rep p then (word_rep p w =? max_rep)%N else true;
                    d_vis := if p_rep p && p_def p then (word_def p w <=? max_vis)%N else true;
                    d_valid := if p_def p then (word_def p w =? 0)%N else true |}) (front_word p src).

(* ---- bytepack.rs ---- *)
(* with_capacity 80-93: the bytes of a value *)
Definition pack_width (max : nat) : nat :=
  if max =? 0 then 0 else if (N.of_nat max <? 256)%N then 1 else if (N.of_nat max <? 65536)%N then 2 else if (N.of_nat max <? 4294967296)%N then 4 else 8.
(* append 102-110 and into_data 113-121 *)
Definition pack (max : nat) (xs : list nat) : list N := flat_map (fun x => le_bytes (pack_width max) (trunc (pack_width max) (N.of_nat x))) xs.

(* ---- writing ---- *)
(* the loops of serialize_full_zip_fixed 4045-4058 and serialize_full_zip_variable 4108-4126, 4131-4149:
   [enc] is what is stored of a visible value; the data and the repetition index with its last entry *)
Fixpoint zip_words (enc : desc -> list N -> list N) (ws : list (list N * desc)) (vals : list (list N)) (offset : nat) : option (list N * list nat) :=
  match ws with
  | [] => Some ([], [offset])
  | (w, d) :: t =>
      obind (if d_vis d then match vals with v :: vals' => Some (enc d v, vals') | [] => None end else Some ([], vals)) (fun '(v, vals') =>
      omap (fun '(bs, idx) => (w ++ v ++ bs, if d_new d then offset :: idx else idx)) (zip_words enc t vals' (offset + length w + length v)))
  end.
(* a value of the variable layout is its length and its bytes, nothing if it is null; [k] bytes of length *)
Definition enc_fixed (d : desc) (v : list N) : list N := v.
Definition enc_var (k : nat) (d : desc) (v : list N) : list N := if d_valid d then le_bytes k (trunc k (N.of_nat (length v))) ++ v else [].
(* EncodedPage of encode_full_zip 4189-4265: FullZipLayout with its bits and layers *)
Record fzpage := { z_bits_rep : N; z_bits_def : N; z_meaning : list meaning; z_data : list N; z_index : option (list N); z_rows : nat }.
Definition maxl (l : list nat) : nat := fold_right Nat.max 0 l.
(* SerializedRepDefs::new 188-211: max_visible_level, u16::MAX without lists *)
Definition writer_vis (ms : list meaning) : N :=
  let fix go ms := match ms with [] => 0 | m :: t => if m_list m then 0 else num_def_levels m + go t end in
  if existsb m_list ms then N.of_nat (go ms) else 65535%N.
(* [width] is None for fixed width values, else the bytes of a length *)
Definition encode_full_zip (width : option nat) (l : levels) (vals : list (list N)) (rows : nat) : option fzpage :=
  let max_rep := match r_rep l with Some r => N.of_nat (maxl r) | None => 0%N end in
  let max_def := match r_def l with Some d => N.of_nat (maxl d) | None => 0%N end in
  let num_items := match r_rep l with Some r => length r | None => length vals end in
  let c := build_cw (option_map (map N.of_nat) (r_rep l)) max_rep (option_map (map N.of_nat) (r_def l)) max_def (writer_vis (r_meaning l)) num_items in
  let payload := sumn (map (@length N) vals) in
  obind (cw_all c) (fun ws =>
  obind (match width with
         | None => omap (fun '(d, i) => (d, pack (if cw_has_rep c then payload + cw_bytes c * num_items else 0) i)) (zip_words enc_fixed ws vals 0)
         | Some k => omap (fun '(d, i) => (d, pack (payload + cw_bytes c * num_items + k * length vals) i)) (zip_words (enc_var k) ws vals 0)
         end) (fun '(data, index) =>
  Some {| z_bits_rep := fst (bits_of c max_rep max_def); z_bits_def := snd (bits_of c max_rep max_def); z_meaning := r_meaning l; z_data := data;
          z_index := match index with [] => None | _ => Some index end; z_rows := rows |})).

(* ---- scheduling: FullZipScheduler 1816-2084 ---- *)
Definition z_parser (z : fzpage) : parser := new_parser (z_bits_rep z) (z_bits_def z).
(* max_rep and max_visible_def of try_new 1875-1880 *)
Definition reader_rep (ms : list meaning) : N := N.of_nat (length (filter m_list ms)).
Definition reader_vis (ms : list meaning) : N := N.of_nat (sumn (map num_def_levels (filter (fun m => negb (m_list m)) ms))).
(* the bytes of a range, which must lie in the buffer *)
Definition sub (s e : nat) (l : list N) : option (list N) := if (s <=? e) && (e <=? length l) then Some (firstn (e - s) (skipn s l)) else None.
(* schedule_ranges_rep 1970-2007 and indirect_schedule_ranges 1903-1932: the data of every range *)
Definition index_at (kb : nat) (index : list N) (i : nat) : option nat := omap (fun b => N.to_nat (of_le_bytes b)) (sub (i * kb) (i * kb + kb) index).
Definition fetch_rep (z : fzpage) (index : list N) (ipr : nat) (rs : list (nat * nat)) : option (list (list N)) :=
  let kb := length index / (ipr * z_rows z + 1) in
  sequence_opt (map (fun r => obind (index_at kb index (fst r * ipr)) (fun s => obind (index_at kb index (snd r * ipr)) (fun e => sub s e (z_data z)))) rs).
(* schedule_ranges_simple 2012-2059 *)
Definition fetch_simple (z : fzpage) (w ipr : nat) (rs : list (nat * nat)) : option (list (list N)) :=
  let t := w + p_bytes (z_parser z) in sequence_opt (map (fun r => sub (fst r * ipr * t) (snd r * ipr * t) (z_data z)) rs).
(* schedule_ranges 2074-2083 for fixed width values of [w] bytes *)
Definition fetch_fixed (z : fzpage) (w ipr : nat) (rs : list (nat * nat)) : option (list (list N)) :=
  match z_index z with Some i => fetch_rep z i ipr rs | None => fetch_simple z w ipr rs end.

(* ---- FixedFullZipDecoder 2094-2213 ---- *)
Record fdec := { f_bufs : list (list N); f_off : nat }.
(* the loop of slice_next_task 2125-2147: the position, the rows and the items *)
Fixpoint scan_rows (fuel : nat) (p : parser) (mr mv : N) (w : nat) (num_rows : nat) (buf : list N) (pos rows items : nat) : option (nat * nat * nat) :=
  match fuel with
  | 0 => None
  | S fuel =>
      if length buf <=? pos then Some (pos, rows, items) else
      obind (parse_desc p (skipn pos buf) mr mv) (fun d =>
      if d_new d && (rows =? num_rows) then Some (pos, rows, items)
      else scan_rows fuel p mr mv w num_rows buf (pos + (if d_vis d then w else 0) + p_bytes p) (if d_new d then S rows else rows) (S items))
  end.
(* slice_next_task 2107-2191: the decoder after it, the bytes, the items and the rows of the task *)
Definition slice_next (p : parser) (mr mv : N) (w : nat) (num_rows : nat) (f : fdec) : option (fdec * (list N * nat * nat)) :=
  match f_bufs f with
  | [] => None
  | buf :: t =>
      if p_rep p then
        obind (scan_rows (S (length buf)) p mr mv w num_rows buf (f_off f) 0 0) (fun '(pos, rows, items) =>
        omap (fun s => (if pos =? length buf then {| f_bufs := t; f_off := 0 |} else {| f_bufs := buf :: t; f_off := pos |}, (s, items, rows))) (sub (f_off f) pos buf))
      else
        let avail := length buf - f_off f in
        let needed := num_rows * (w + p_bytes p) in
        if avail <=? needed then omap (fun s => ({| f_bufs := t; f_off := 0 |}, (s, avail / (w + p_bytes p), avail / (w + p_bytes p)))) (sub (f_off f) (f_off f + avail) buf)
        else omap (fun s => ({| f_bufs := buf :: t; f_off := f_off f + needed |}, (s, num_rows, num_rows))) (sub (f_off f) (f_off f + needed) buf)
  end.
(* drain 2195-2209; [fuel] bounds the buffers looked at *)
Fixpoint drain_loop (fuel : nat) (p : parser) (mr mv : N) (w remaining : nat) (f : fdec) : option (fdec * list (list N * nat * nat)) :=
  match remaining with
  | 0 => Some (f, [])
  | _ => match fuel with
         | 0 => None
         | S fuel => obind (slice_next p mr mv w remaining f) (fun '(f', t) => omap (fun '(f'', ts) => (f'', t :: ts)) (drain_loop fuel p mr mv w (remaining - snd t) f'))
         end
  end.
(* FixedFullZipDecodeTask::decode 2530-2620: levels (None if empty) and values *)
Record decoded := { o_rep : option (list nat); o_def : option (list nat); o_vals : list (list N) }.
Fixpoint unzip_items (p : parser) (mv : N) (w n : nat) (buf : list N) : option (list nat * list nat * list (list N)) :=
  match n with
  | 0 => Some ([], [], [])
  | S n =>
      obind (parse p buf) (fun '(r, d) =>
      let rest := skipn (p_bytes p) buf in
      let vis := match d with x :: _ => (N.of_nat x <=? mv)%N | [] => true end in
      obind (if vis then omap (fun v => ([v], skipn w rest)) (sub 0 w rest) else Some ([], rest)) (fun '(v, rest) =>
      omap (fun '(rs, ds, vs) => (r ++ rs, d ++ ds, v ++ vs)) (unzip_items p mv w n rest)))
  end.
Definition none_if_empty (l : list nat) : option (list nat) := match l with [] => None | _ => Some l end.
Definition decode_fixed (p : parser) (mv : N) (w : nat) (ts : list (list N * nat * nat)) : option decoded :=
  if p_bytes p =? 0 then Some {| o_rep := None; o_def := None; o_vals := flat_map (fun t => firstn (snd (fst t)) (chunks_exact (length (fst (fst t))) w (fst (fst t)))) ts |}
  else omap (fun xs => {| o_rep := none_if_empty (flat_map (fun x => fst (fst x)) xs); o_def := none_if_empty (flat_map (fun x => snd (fst x)) xs); o_vals := flat_map snd xs |})
            (sequence_opt (map (fun t => unzip_items p mv w (snd (fst t)) (fst (fst t))) ts)).
(* batches of [ns] rows of the ranges [rs], values of [w] bytes *)
Fixpoint drains (p : parser) (mr mv : N) (w ipr : nat) (ns : list nat) (f : fdec) : option (list decoded) :=
  match ns with
  | [] => Some []
  | n :: ns => obind (drain_loop (length (f_bufs f)) p mr mv w (n * ipr) f) (fun '(f', ts) => obind (decode_fixed p mv w ts) (fun o => omap (cons o) (drains p mr mv w ipr ns f')))
  end.
Definition read_fixed (z : fzpage) (w ipr : nat) (rs : list (nat * nat)) (ns : list nat) : option (list decoded) :=
  obind (fetch_fixed z w ipr rs) (fun bufs => drains (z_parser z) (reader_rep (z_meaning z)) (reader_vis (z_meaning z)) w ipr ns {| f_bufs := bufs; f_off := 0 |}).

(* ---- VariableFullZipDecoder 2220-2470 ---- *)
(* what unzip 2303-2417 makes of the buffers: levels, offsets, data, and the starts of rows; visible_item_counts
   are the starts of offsets counted in offsets *)
Record unzipped := { v_rep : list nat; v_def : list nat; v_offsets : list N; v_data : list N; v_starts : list nat; v_offset_starts : list nat; v_cur : N }.
Definition v_empty : unzipped := {| v_rep := []; v_def := []; v_offsets := []; v_data := []; v_starts := []; v_offset_starts := []; v_cur := 0%N |}.
(* one turn of the loop 2337-2392: levels, whether a row starts, the offset pushed, the data *)
Definition v_add (k : nat) (r d : list nat) (new vis : bool) (data : list N) (u : unzipped) : unzipped :=
  {| v_rep := v_rep u ++ r; v_def := v_def u ++ d; v_offsets := v_offsets u ++ (if vis then [trunc k (v_cur u)] else []); v_data := v_data u ++ data;
     v_starts := v_starts u ++ (if new then [Nat.max (length (v_rep u)) (length (v_def u))] else []);
     v_offset_starts := v_offset_starts u ++ (if new then [length (v_offsets u)] else []);
     v_cur := (v_cur u + N.of_nat (length data))%N |}.
Fixpoint unzip_buf (fuel : nat) (p : parser) (mr mv : N) (k : nat) (buf : list N) (u : unzipped) : option unzipped :=
  match buf with
  | [] => Some u
  | _ =>
      match fuel with
      | 0 => None
      | S fuel =>
          obind (parse_desc p buf mr mv) (fun d =>
          obind (parse p buf) (fun '(r, df) =>
          let rest := skipn (p_bytes p) buf in
          if d_vis d && d_valid d then
            obind (sub 0 k rest) (fun lb =>
            let len := N.to_nat (of_le_bytes lb) in
            obind (sub k (k + len) rest) (fun data => unzip_buf fuel p mr mv k (skipn (k + len) rest) (v_add k r df (d_new d) true data u)))
          else unzip_buf fuel p mr mv k rest (v_add k r df (d_new d) (d_vis d) [] u)))
      end
  end.
Definition unzip_all (p : parser) (mr mv : N) (k : nat) (bufs : list (list N)) : option unzipped :=
  omap (v_add k [] [] true true [])
       (fold_left (fun u buf => obind u (unzip_buf (length buf) p mr mv k buf)) bufs (Some v_empty)).
(* drain 2420-2463 and VariableFullZipDecodeTask::decode 2481-2500: both levels are always given to the unraveler *)
Fixpoint windows (data : list N) (os : list N) : option (list (list N)) :=
  match os with a :: ((b :: _) as t) => obind (sub (N.to_nat a) (N.to_nat b) data) (fun v => omap (cons v) (windows data t)) | _ => Some [] end.
Definition cut {A} (s e : nat) (l : list A) : option (list A) := if (s <=? e) && (e <=? length l) then Some (firstn (e - s) (skipn s l)) else None.
Definition drain_var (u : unzipped) (start n : nat) : option decoded :=
  obind (nth_error (v_offset_starts u) start) (fun os =>
  obind (nth_error (v_offset_starts u) (start + n)) (fun oe =>
  obind (nth_error (v_starts u) start) (fun ls =>
  obind (nth_error (v_starts u) (start + n)) (fun le =>
  obind (cut os (oe + 1) (v_offsets u)) (fun offsets =>
  obind (match v_rep u with [] => Some [] | _ => cut ls le (v_rep u) end) (fun rep =>
  obind (match v_def u with [] => Some [] | _ => cut ls le (v_def u) end) (fun def =>
  omap (fun vs => {| o_rep := Some rep; o_def := Some def; o_vals := vs |}) (windows (v_data u) offsets)))))))).
Fixpoint drains_var (u : unzipped) (start : nat) (ns : list nat) : option (list decoded) :=
  match ns with [] => Some [] | n :: ns => obind (drain_var u start n) (fun o => omap (cons o) (drains_var u (start + n) ns)) end.
Definition read_var (z : fzpage) (k : nat) (rs : list (nat * nat)) (ns : list nat) : option (list decoded) :=
  obind (z_index z) (fun index => obind (fetch_rep z index 1 rs) (fun bufs =>
  obind (unzip_all (z_parser z) (reader_rep (z_meaning z)) (reader_vis (z_meaning z)) k bufs) (fun u => drains_var u 0 ns))).
(* the unraveler of a decoded batch *)
Definition batch_levels (ms : list meaning) (o : decoded) : levels := {| r_rep := o_rep o; r_def := o_def o; r_meaning := ms |}.
