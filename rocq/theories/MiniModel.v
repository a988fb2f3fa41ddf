(* The mini-block layout of file format 2.1: writing (rust/lance-encoding/src/encodings/logical/primitive.rs 3587-4010,
   repdef.rs 340-420) and reading (primitive.rs 300-820, 1140-1780) of pages, with the chunks of
   encodings/physical/value.rs and encodings/physical/binary.rs.
   Simplifications: values are byte strings; the decompressor of values is a parameter, which may give
   more values than a chunk has (bit-packed chunks are padded); levels, sizes and positions are natural
   numbers, and numbers of rows that wrap below zero (1485) are negative integers; reading bytes is
   instantaneous; there is no dictionary; assertions and overflow checks are those of release builds.
   None is a panic. *)
From Coq Require Import List Arith NArith ZArith Bool Lia.
From Verif Require Import Lib SerdeModel RepDefModel FullZipModel.
Import ListNotations.
Local Open Scope nat_scope.

(* ---- chunks of values ---- *)
(* MiniBlockCompressed and MiniBlockChunk, encoder.rs 148-184: the bytes, and log_num_values and num_bytes of every chunk *)
Record blocks := { b_data : list N; b_chunks : list (nat * nat) }.
(* MiniBlockChunk::num_values 193-199; None: the difference underflows *)
Definition num_values (log before total : nat) : option nat := if log =? 0 then if total <? before then None else Some (total - before) else Some (2 ^ log).

(* ---- ValueEncoder, value.rs ---- *)
(* find_log_vals_per_chunk 230-246; [fuel] bounds the turns of the loop *)
Fixpoint grow (fuel log size num : nat) : nat * nat :=
  match fuel with
  | 0 => (log, num)
  | S fuel => if N.ltb (N.of_nat (2 * size)) 8186 && N.ltb (N.of_nat (2 * num)) 4096 then grow fuel (S log) (2 * size) (2 * num) else (log, num)
  end.
Definition vals_per_chunk (w : nat) : option (nat * nat) := if N.ltb (N.of_nat (2 * w)) 8186 then Some (grow 12 1 (2 * w) 2) else None.
(* the loop of chunk_data 264-283 *)
Fixpoint value_chunks (fuel log per w n : nat) : list (nat * nat) :=
  match fuel with
  | 0 => []
  | S fuel => if per <=? n then (log, per * w) :: value_chunks fuel log per w (n - per) else [(0, n * w)]
  end.
(* chunk_data 248-290: values of [w] bytes *)
Definition value_blocks (w : nat) (vals : list (list N)) : option blocks :=
  omap (fun '(log, per) => {| b_data := concat vals; b_chunks := value_chunks (S (length vals)) log per w (length vals) |}) (vals_per_chunk w).
(* ValueDecompressor 431-435 *)
Definition value_decode (w : nat) (bytes : list N) (n : nat) : option (list (list N)) :=
  if length bytes =? n * w then Some (chunks_exact (length bytes) w bytes) else None.

(* ---- slices of levels: RepDefSlicer, repdef.rs 346-420 ---- *)
(* the loop of slice_next 400-408: the levels passed for [n] visible values; None: unwrap of None *)
Fixpoint pass (mv n : nat) (def : list nat) : option nat :=
  match n, def with
  | 0, _ => Some 0
  | S _, [] => None
  | S n', d :: t => omap S (pass mv (if d <=? mv then n' else n) t)
  end.
(* slice_next 388-420: [vis] is max_visible_level, [def] the definition levels; the new current *)
Definition slice_next (vis : option nat) (def : option (list nat)) (cur n : nat) : option nat :=
  match vis, def with
  | Some mv, Some d => if length d <? cur then None else omap (fun k => cur + k) (pass mv n (skipn cur d))
  | _, _ => Some (cur + n)
  end.
(* the slices of the loop of compress_levels 3760-3767, with slice_rest 380-385 for the last chunk *)
Fixpoint slice_levels (vis : option nat) (def : option (list nat)) (levels : list nat) (logs : list nat) (cur before total : nat) : option (list (list nat)) :=
  match logs with
  | [] => Some []
  | [_] => omap (fun s => [s]) (cut cur (length levels) levels)
  | g :: t =>
      obind (num_values g before total) (fun n =>
      obind (slice_next vis def cur n) (fun cur' =>
      obind (cut cur cur' levels) (fun s => omap (cons s) (slice_levels vis def levels t cur' (before + n) total))))
  end.
(* the repetition index 3769-3817: [done] are the entries of the chunks before, the last one first *)
Definition count_starts (mr : nat) (l : list nat) : nat := length (filter (fun r => r =? mr) l).
Fixpoint leftovers (mr n : nat) (rev : list nat) : nat :=
  match rev with [] => n | r :: t => if r =? mr then S n else leftovers mr (S n) t end.
Fixpoint index_of (mr : nat) (first : bool) (cs : list (list nat)) (done : list (nat * nat)) : option (list (nat * nat)) :=
  match cs with
  | [] => Some (rev done)
  | c :: t =>
      let final := match t with [] => true | _ => false end in
      obind (if first then Some done
             else match c with
                  | [] => None
                  | r :: _ => Some (if r =? mr then match done with (a, b) :: d => (if b =? 0 then (a, b) else (a + 1, 0)) :: d | [] => [] end else done)
                  end) (fun done =>
      index_of mr false t ((count_starts mr (tl c) + (if final then 1 else 0), if final then 0 else leftovers mr 0 (rev c)) :: done))
  end.

(* ---- serialize_miniblocks 3648-3720 ---- *)
(* pad_bytes, lance-core/src/utils/bit.rs 8-11 *)
Definition pad8 (n : nat) : nat := (8 - n mod 8) mod 8.
Definition level_bytes (l : list nat) : list N := flat_map (fun x => le_bytes 2 (trunc 2 (N.of_nat x))) l.
(* one chunk 3671-3712, which starts aligned: its bytes and its word of metadata *)
Definition chunk_bytes (rep def val : list N) : list N :=
  let head := le_bytes 2 (trunc 2 (N.of_nat (length rep))) ++ le_bytes 2 (trunc 2 (N.of_nat (length def))) ++ le_bytes 2 (trunc 2 (N.of_nat (length val))) ++ rep ++ def in
  let body := head ++ repeat 0%N (pad8 (length head)) ++ val in
  body ++ repeat 0%N (pad8 (length body)).
Definition meta_word (log : nat) (bytes : list N) : list N :=
  le_bytes 2 (trunc 2 (N.lor (N.shiftl (N.of_nat (length bytes / 8 - 1)) 4) (N.of_nat log))).
Definition one_chunk (log : nat) (rep def val : list N) : option (list N * list N) :=
  let b := chunk_bytes rep def val in
  if (N.of_nat (length rep) <? 65535)%N && (N.of_nat (length def) <? 65535)%N && (N.of_nat (length b) <=? 16384)%N && (length b mod 8 =? 0) then Some (b, meta_word log b) else None.
(* the loop over the chunks: their bytes and the metadata; the chunks are zipped with the levels *)
Fixpoint write_chunks (chunks : list (nat * nat)) (rep def : list (list N)) (data : list N) : option (list N * list N) :=
  match chunks, rep, def with
  | (log, n) :: cs, r :: rep', d :: def' =>
      if length data <? n then None else
      obind (one_chunk log r d (firstn n data)) (fun '(b, m) =>
      omap (fun '(bs, ms) => (b ++ bs, m ++ ms)) (write_chunks cs rep' def' (skipn n data)))
  | _, _, _ => Some ([], [])
  end.
(* the page of encode_miniblock 3889-4011: metadata, chunks, repetition index, MiniBlockLayout *)
Record mpage := { m_meta : list N; m_data : list N; m_index : option (list N); m_items : nat; m_rep : bool; m_def : bool; m_meaning : list meaning }.
(* SerializedRepDefs::new, repdef.rs 188-211: max_visible_level *)
Fixpoint below_list (ms : list meaning) : nat := match ms with [] => 0 | m :: t => if m_list m then 0 else num_def_levels m + below_list t end.
Definition max_visible (ms : list meaning) : option nat := if existsb m_list ms then Some (below_list ms) else None.
Definition max_rep (ms : list meaning) : nat := length (filter m_list ms).
Definition u64_bytes (l : list (nat * nat)) : list N := flat_map (fun p => le_bytes 8 (trunc 8 (N.of_nat (fst p))) ++ le_bytes 8 (trunc 8 (N.of_nat (snd p)))) l.
(* [items] is the number of values *)
Definition encode_mini (l : levels) (items : nat) (b : blocks) : option mpage :=
  let vis := max_visible (r_meaning l) in
  let mr := max_rep (r_meaning l) in
  let logs := map fst (b_chunks b) in
  let none := map (fun _ => []) logs in
  obind (match r_rep l with
         | Some r => obind (slice_levels vis (r_def l) r logs 0 0 items) (fun cs =>
                     omap (fun i => (map level_bytes cs, i)) (if 0 <? mr then index_of mr true cs [] else Some []))
         | None => Some (none, [])
         end) (fun '(rep, index) =>
  obind (match r_def l with Some d => omap (map level_bytes) (slice_levels vis (r_def l) d logs 0 0 items) | None => Some none end) (fun def =>
  omap (fun '(data, meta) => {| m_meta := meta; m_data := data; m_index := match index with [] => None | _ => Some (u64_bytes index) end; m_items := items;
                                m_rep := is_some (r_rep l); m_def := is_some (r_def l); m_meaning := r_meaning l |})
       (write_chunks (b_chunks b) rep def (b_data b)))).

(* ---- initialize 1578-1694 ---- *)
(* ChunkMeta 300-305: values, bytes and position *)
Record cmeta := { c_values : nat; c_size : nat; c_pos : nat }.
Fixpoint chunk_metas (words : list N) (pos before items : nat) : list cmeta :=
  match words with
  | [] => []
  | w :: t =>
      let size := (N.to_nat (N.shiftr w 4) + 1) * 8 in
      let n := match t with [] => items - before | _ => 2 ^ N.to_nat (N.land w 15) end in
      {| c_values := n; c_size := size; c_pos := pos |} :: chunk_metas t (pos + size) (before + n) items
  end.
Fixpoint pairs (l : list N) : list (nat * nat) := match l with a :: b :: t => (N.to_nat a, N.to_nat b) :: pairs t | _ => [] end.
(* RepIndexBlock 1141-1152 and RepetitionIndex::decode 1167-1199 *)
Record blk := { k_first : nat; k_starts : nat; k_pre : bool; k_trail : bool }.
Fixpoint decode_index (pre : bool) (first : nat) (l : list (nat * nat)) : list blk :=
  match l with
  | [] => []
  | (ends, partial) :: t =>
      let trail := 0 <? partial in
      let starts := ends + (if trail then 1 else 0) - (if pre then 1 else 0) in
      {| k_first := first; k_starts := starts; k_pre := pre; k_trail := trail |} :: decode_index trail (first + starts) t
  end.
Definition init_chunks (p : mpage) : list cmeta := chunk_metas (map of_le_bytes (chunks_exact (length (m_meta p)) 2 (m_meta p))) 0 0 (m_items p).
Definition init_index (p : mpage) : list blk :=
  decode_index false 0 match m_index p with
                       | Some i => pairs (map of_le_bytes (chunks_exact (length i) 8 i))
                       | None => map (fun c => (c_values c, 0)) (init_chunks p)
                       end.

(* ---- scheduling: ChunkInstructions 1361-1575 ---- *)
Inductive action := Take | Skip | Absent.
Record instr := { s_chunk : nat; s_pre : action; s_skip : nat; s_take : Z; s_trail : bool }.
(* the search 1433-1450: the blocks are sorted by first_row, so that binary_search_by_key and the walk back
   find the first block with that row, or else the last one before it; None: the difference underflows *)
Fixpoint find_first (s i : nat) (bs : list blk) : option nat := match bs with [] => None | b :: t => if k_first b =? s then Some i else find_first s (S i) t end.
Definition find_block (s : nat) (bs : list blk) : option nat :=
  match find_first s 0 bs with
  | Some i => Some i
  | None => match length (filter (fun b => k_first b <? s) bs) with 0 => None | S i => Some i end
  end.
(* the loop 1454-1499 from block [i] on; None: an index out of bounds *)
Fixpoint take_blocks (i : nat) (bs : list blk) (needed : nat) (need_pre : bool) (skip : nat) : option (list instr) :=
  if (needed =? 0) && negb need_pre then Some [] else
  match bs with
  | [] => None
  | b :: t =>
      let avail := k_starts b - skip in
      let n := Nat.min avail needed in
      let trail := (n =? avail) && k_trail b in
      let pre := if k_pre b then if need_pre then Take else Skip else Absent in
      omap (cons {| s_chunk := i; s_pre := pre; s_skip := skip; s_take := Z.of_nat n - (if trail then 1 else 0); s_trail := trail |})
           (take_blocks (S i) t (needed - n) trail 0)
  end.
Definition schedule_range (bs : list blk) (r : nat * nat) : option (list instr) :=
  obind (find_block (fst r) bs) (fun i =>
  let skip := fst r - match nth_error bs i with Some b => k_first b | None => 0 end in
  take_blocks i (skipn i bs) (snd r - fst r) false skip).
(* merging 1503-1528 *)
Fixpoint merge_instrs (last : instr) (l : list instr) : list instr :=
  match l with
  | [] => [last]
  | i :: t =>
      if (s_chunk last =? s_chunk i) && (s_take last + Z.of_nat (s_skip last) =? Z.of_nat (s_skip i))%Z then
        merge_instrs {| s_chunk := s_chunk last; s_pre := s_pre last; s_skip := s_skip last; s_take := s_take last + s_take i; s_trail := s_trail last || s_trail i |} t
      else last :: merge_instrs i t
  end.
Definition schedule_instrs (bs : list blk) (rs : list (nat * nat)) : option (list instr) :=
  obind (sequence_opt (map (schedule_range bs) rs)) (fun ls =>
  if 1 <? length rs then match concat ls with [] => None | i :: t => Some (merge_instrs i t) end else Some (concat ls)).

(* ---- draining: 1532-1575 and MiniBlockDecoder::drain 778-826 ---- *)
(* ChunkDrainInstructions 1399-1405 *)
Record drained := { d_instr : instr; d_skip : nat; d_take : Z; d_act : action }.
(* drain_from_instruction: the piece, whether the instruction is consumed, rows_desired, need_preamble and skip_in_chunk after it; None: the panic *)
Definition drain_instr (i : instr) (desired : nat) (need : bool) (skip : nat) : option (drained * bool * nat * bool * nat) :=
  let has := match s_pre i with Absent => false | _ => true end in
  let avail := (s_take i - Z.of_nat skip + (if s_trail i then 1 else 0))%Z in
  let mk n a := {| d_instr := i; d_skip := skip; d_take := n; d_act := a |} in
  if need && negb has then None else
  let act := if has then if need then Take else Skip else Absent in
  if (avail <=? Z.of_nat desired)%Z then Some (mk avail act, true, Z.to_nat (Z.of_nat desired - avail), s_trail i, 0)
  else Some (mk (Z.of_nat desired) act, false, 0, false, skip + desired).
(* the loaded chunks before the one wanted are dropped 790-794; None: unwrap of None *)
Fixpoint drop_chunks (c : nat) (l : list nat) : option (list nat) := match l with [] => None | x :: t => if x =? c then Some l else drop_chunks c t end.
Record mdec := { e_instrs : list instr; e_chunks : list nat; e_skip : nat }.
(* the loop 783-801; an instruction that is not consumed ends it *)
Fixpoint drain_mini (is : list instr) (chunks : list nat) (desired : nat) (need : bool) (skip : nat) : option (list drained * mdec) :=
  if (desired =? 0) && negb need then Some ([], {| e_instrs := is; e_chunks := chunks; e_skip := skip |}) else
  match is with
  | [] => None
  | i :: t =>
      obind (drain_instr i desired need skip) (fun '(d, consumed, desired, need, skip) =>
      obind (drop_chunks (s_chunk i) chunks) (fun chunks =>
      if consumed then omap (fun '(ds, st) => (d :: ds, st)) (drain_mini t chunks desired need skip)
      else Some ([d], {| e_instrs := is; e_chunks := chunks; e_skip := skip |})))
  end.

(* ---- decoding ---- *)
(* map_range 429-609 *)
(* the search for the first row start, with definition levels 450-463 and without 465-467: its place and the items before it *)
Fixpoint preamble_def (mr mv idx items : nat) (l : list (nat * nat)) : option nat * nat :=
  match l with
  | [] => (None, items)
  | (r, d) :: t => if r =? mr then (Some idx, items) else preamble_def mr mv (S idx) (if d <=? mv then S items else items) t
  end.
Fixpoint position (mr idx : nat) (l : list nat) : option nat := match l with [] => None | r :: t => if r =? mr then Some idx else position mr (S idx) t end.
(* the walk to the start 503-521: the place found, and the rows and invisible items seen *)
Fixpoint lead (mr mv s idx rows invis : nat) (l : list (nat * nat)) : option nat * nat * nat :=
  match l with
  | [] => (None, rows, invis)
  | (r, d) :: t =>
      if r =? mr then
        if S rows =? s then (Some (idx + 1), S rows, invis) else lead mr mv s (S idx) (S rows) (if d <=? mv then invis else S invis) t
      else lead mr mv s (S idx) rows invis t
  end.
(* the walk to the end 529-547 *)
Fixpoint tail (mr mv target idx rows invis : nat) (l : list (nat * nat)) : option nat * nat :=
  match l with
  | [] => (None, invis)
  | (r, d) :: t =>
      if r =? mr then
        if S rows =? target then (Some (idx + 1), invis) else tail mr mv target (S idx) (S rows) (if d <=? mv then invis else S invis) t
      else tail mr mv target (S idx) rows invis t
  end.
(* the walks without definition levels 579-602: the place of the row [s], and the rows seen *)
Fixpoint walk_rep (mr s idx rows : nat) (l : list nat) : option nat * nat :=
  match l with
  | [] => (None, rows)
  | r :: t => if r =? mr then if S rows =? s then (Some (idx + 1), S rows) else walk_rep mr s (S idx) (S rows) t else walk_rep mr s (S idx) rows t
  end.
Notation range := (nat * nat)%type.
Definition map_range (s e : nat) (rep def : option (list nat)) (mr mv total : nat) (a : action) : option (range * range) :=
  match rep with
  | None => Some ((s, e), (s, e))
  | Some rep =>
      let '(start, items) := match a with
                             | Absent => (Some 0, 0)
                             | _ => match def with
                                    | Some d => preamble_def mr mv 0 0 (combine rep d)
                                    | None => (position mr 0 rep, match position mr 0 rep with Some i => i | None => length rep end)
                                    end
                             end in
      match start with
      | None => match a with Take => Some ((0, total), (0, length rep)) | _ => None end
      | Some first =>
          if s =? e then Some ((0, items), (0, first)) else
          if e <? s then None else
          let rep := skipn first rep in
          let adj (r : range) := match a with Skip => (fst r + first, snd r + first) | Take => (fst r, snd r + first) | Absent => r end in
          match def with
          | Some def =>
              if length def <? first then None else
              let def := skipn first def in
              obind (if s =? 0 then Some (None, 0, 0) else omap (fun d0 => lead mr mv s 0 0 (if d0 <=? mv then 0 else 1) (tl (combine rep def))) (nth_error def 0)) (fun '(found, rows, inv) =>
              let '(ns, nls) := match found with Some i => (i - inv, i) | None => (0, 0) end in
              obind (nth_error def nls) (fun dn =>
              if length rep <? nls + 1 then None else
              let '(found, tinv) := tail mr mv (e + 1) 0 (rows + 1) (if dn <=? mv then 0 else 1) (combine (skipn (nls + 1) rep) (skipn (nls + 1) def)) in
              let '(ne, nle) := match found with Some i => (i + ns - tinv, i + nls) | None => (length rep - (inv + tinv), length rep) end in
              Some (adj (ns, ne), adj (nls, nle))))
          | None =>
              let '(found, rows) := if s =? 0 then (None, 0) else walk_rep mr s 0 0 (tl rep) in
              let ns := match found with Some i => i | None => 0 end in
              obind (if e <? total then if length rep <? ns + 1 then None else Some (fst (walk_rep mr e 0 rows (skipn (ns + 1) rep))) else Some None) (fun found =>
              let ne := match found with Some i => i + ns | None => length rep end in
              Some (adj (ns, ne), adj (ns, ne)))
          end
      end
  end.

(* decode_miniblock_chunk 615-647: the levels and the values of a chunk of [n] values *)
Definition u16s (b : list N) : list nat := map (fun x => N.to_nat (of_le_bytes x)) (chunks_exact (length b) 2 b).
Definition chunk_decode (dec : list N -> nat -> option (list (list N))) (hr hd : bool) (buf : list N) (n : nat) : option (option (list nat) * option (list nat) * list (list N)) :=
  obind (sub 0 2 buf) (fun a => obind (sub 2 4 buf) (fun b => obind (sub 4 6 buf) (fun c =>
  let nr := N.to_nat (of_le_bytes a) in let nd := N.to_nat (of_le_bytes b) in let nv := N.to_nat (of_le_bytes c) in
  let p1 := nr mod 2 in
  obind (sub 6 (6 + nr) buf) (fun rep =>
  obind (sub (6 + nr + p1) (6 + nr + p1 + nd) buf) (fun def =>
  let at_ := 6 + nr + nd + pad8 (6 + nr + p1 + nd) in
  obind (sub at_ (at_ + nv) buf) (fun val =>
  omap (fun vs => (if hr then Some (u16s rep) else None, if hd then Some (u16s def) else None, vs)) (dec val n))))))).
(* one turn of the loop of decode 666-694: the levels and the values of a piece.  Levels are there in all
   chunks of a page or in none, so that extend_levels 365-392 only copies *)
Definition decode_piece (dec : list N -> nat -> option (list (list N))) (p : mpage) (d : drained) : option (list nat * list nat * list (list N)) :=
  obind (nth_error (init_chunks p) (s_chunk (d_instr d))) (fun c =>
  obind (sub (c_pos c) (c_pos c + c_size c) (m_data p)) (fun buf =>
  obind (chunk_decode dec (m_rep p) (m_def p) buf (c_values c)) (fun '(rep, def, vals) =>
  let s := d_skip d + s_skip (d_instr d) in
  obind (map_range s (Z.to_nat (Z.of_nat s + d_take d)) rep def (max_rep (m_meaning p)) (below_list (m_meaning p)) (c_values c) (d_act d)) (fun '(ir, lr) =>
  obind (match rep with Some r => cut (fst lr) (snd lr) r | None => Some [] end) (fun r =>
  obind (match def with Some l => cut (fst lr) (snd lr) l | None => Some [] end) (fun l =>
  omap (fun v => (r, l, v)) (cut (fst ir) (snd ir) vals))))))).
Definition decode_pieces (dec : list N -> nat -> option (list (list N))) (p : mpage) (ds : list drained) : option decoded :=
  omap (fun xs => {| o_rep := if m_rep p && negb (length ds =? 0) then Some (flat_map (fun x => fst (fst x)) xs) else None;
                     o_def := if m_def p && negb (length ds =? 0) then Some (flat_map (fun x => snd (fst x)) xs) else None;
                     o_vals := flat_map snd xs |})
       (sequence_opt (map (decode_piece dec p) ds)).
(* batches of [ns] rows of [ipr] items *)
Fixpoint drain_batches (dec : list N -> nat -> option (list (list N))) (p : mpage) (ipr : nat) (ns : list nat) (st : mdec) : option (list decoded) :=
  match ns with
  | [] => Some []
  | n :: ns =>
      obind (drain_mini (e_instrs st) (e_chunks st) (n * ipr) false (e_skip st)) (fun '(ds, st') =>
      obind (decode_pieces dec p ds) (fun o => omap (cons o) (drain_batches dec p ipr ns st')))
  end.
(* schedule_ranges 1706-1777: the chunks of the instructions, without repetitions *)
Fixpoint unique (seen l : list nat) : list nat :=
  match l with [] => [] | x :: t => if existsb (Nat.eqb x) seen then unique seen t else x :: unique (x :: seen) t end.
Definition read_mini (dec : list N -> nat -> option (list (list N))) (p : mpage) (ipr : nat) (rs : list (nat * nat)) (ns : list nat) : option (list decoded) :=
  obind (schedule_instrs (init_index p) (map (fun r => (fst r * ipr, snd r * ipr)) rs)) (fun is =>
  drain_batches dec p ipr ns {| e_instrs := is; e_chunks := unique [] (map s_chunk is); e_skip := 0 |}).

(* ---- BinaryMiniBlockEncoder, binary.rs 530-700: strings with 32 bit offsets ---- *)
(* search_next_offset_idx 541-566: [offs] are the lengths' running sums; [fuel] bounds the doublings *)
Fixpoint search_next (fuel : nat) (offs : list nat) (last num : nat) : nat :=
  match fuel with
  | 0 => last + num
  | S fuel =>
      let at_ i := nth i offs 0 in
      let new := 2 * num in
      if length offs <=? last + new then
        if N.leb (N.of_nat (at_ (length offs - 1) - at_ last + (length offs - last) * 4)) 4096 then length offs - 1 else last + num
      else if N.leb (N.of_nat (at_ (last + new) - at_ last + (new + 1) * 4)) 4096 then search_next fuel offs last new
      else last + num
  end.
(* the loop of chunk_data 595-650: the first and last offset of every chunk; [fuel] bounds the chunks *)
Fixpoint binary_cuts (fuel : nat) (offs : list nat) (last : nat) : list (nat * nat) :=
  match fuel with
  | 0 => []
  | S fuel =>
      let e := search_next (length offs) offs last 1 in
      if e =? length offs - 1 then [(last, e)] else (last, e) :: binary_cuts fuel offs e
  end.
Definition pad4 (n : nat) : nat := (4 - n mod 4) mod 4.
(* u32 as bytes *)
Definition u32_bytes (l : list nat) : list N := flat_map (fun x => le_bytes 4 (trunc 4 (N.of_nat x))) l.
(* the bytes of a chunk 656-683 *)
Definition binary_chunk (offs : list nat) (data : list N) (c : nat * nat) : list N :=
  let '(s, e) := c in
  let o s := nth s offs 0 in
  let b := u32_bytes (map (fun x => x - o s + (e - s + 1) * 4) (firstn (e - s + 1) (skipn s offs))) ++ firstn (o e - o s) (skipn (o s) data) in
  b ++ repeat 72%N (pad4 (length b)).
(* log_num_values and num_bytes 612-645: trailing_zeros of a power of two is its logarithm *)
Definition binary_meta (final : bool) (offs : list nat) (c : nat * nat) : nat * nat :=
  let '(s, e) := c in
  let size := (e - s + 1) * 4 + (nth e offs 0 - nth s offs 0) in
  (if final then 0 else Nat.log2 (e - s), N.to_nat (trunc 2 (N.of_nat ((size + 3) / 4 * 4)))).
Definition binary_blocks (offs : list nat) (data : list N) : blocks :=
  let cuts := binary_cuts (length offs) offs 0 in
  {| b_data := flat_map (binary_chunk offs data) cuts;
     b_chunks := map (binary_meta false offs) (removelast cuts) ++ match rev cuts with c :: _ => [binary_meta true offs c] | [] => [] end |}.
(* BinaryMiniBlockDecompressor::decompress 708-728 *)
Definition binary_decode (bytes : list N) (n : nat) : option (list (list N)) :=
  if length bytes <? 8 then None else
  if negb (length bytes mod 4 =? 0) then None else
  obind (cut 0 (n + 1) (chunks_exact (length bytes) 4 bytes)) (fun cs =>
  let os := map (fun x => N.to_nat (of_le_bytes x)) cs in
  obind (cut (nth 0 os 0) (nth n os 0) bytes) (fun data => windows data (map (fun o => N.of_nat (o - nth 0 os 0)) os))).
