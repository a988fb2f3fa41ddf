(* FSST, the compression of strings: rust/lance-encoding/src/compression_algo/fsst/src/fsst.rs.
   Simplifications: a symbol is the list of its bytes (its value in a u64 and its length; comparing with a masked word is
   comparing the first bytes); the fields of a u16 `code | length << 12` are kept apart; the hash of three bytes is any function;
   what is counted in the sample and the order in which candidates leave the heap are given; machines are little endian;
   writing eight bytes for a symbol is writing its bytes, as what is written after them is overwritten or cut off; the room in
   the output is the subject of theorems; codes of nine bits are below 512, so that masking with 511 does nothing. *)
From Coq Require Import List Arith NArith ZArith Bool Lia.
From Verif Require Import Lib PageModel.
Import ListNotations.
Local Open Scope nat_scope.

Definition sym := list nat.
Definition upd {X} (f : nat -> X) (k : nat) (v : X) : nat -> X := fun x => if x =? k then v else f x.
(* SymbolTable 232-245 while it is built; histo is by length - 1 *)
Record table := { t_bytes : nat -> nat; t_short : nat -> nat -> nat; t_syms : nat -> sym; t_hash : nat -> option (sym * nat); t_n : nat; t_term : nat; t_histo : nat -> nat }.
(* new 278-307; clear 309-331 keeps the terminator *)
Definition new_table (term : nat) : table := {| t_bytes := fun b => b; t_short := fun b0 _ => b0; t_syms := fun c => if c <? 256 then [c] else [0]; t_hash := fun _ => None; t_n := 0; t_term := term; t_histo := fun _ => 0 |}.
Definition clear (t : table) : table := new_table (t_term t).
(* `terminator as u8` *)
Definition term_byte (term : nat) : nat := term mod 256.

(* a finished table: a code with its length *)
Record pcode := { c_code : nat; c_len : nat }.
Record ftable := { f_bytes : nat -> pcode; f_short : nat -> nat -> pcode; f_syms : nat -> sym; f_hash : nat -> option (sym * pcode); f_n : nat; f_term : nat; f_suffix : nat }.

Section Fsst.
  (* the place in the hash table of three bytes, 40-42 *)
  Variable h : list nat -> nat.

  (* add 344-359 and hash_insert 333-342 *)
  Definition bump (t : table) (s : sym) (bytes : nat -> nat) (short : nat -> nat -> nat) (hash : nat -> option (sym * nat)) : table :=
    {| t_bytes := bytes; t_short := short; t_syms := upd (t_syms t) (256 + t_n t) s; t_hash := hash; t_n := S (t_n t); t_term := t_term t; t_histo := upd (t_histo t) (length s - 1) (S (t_histo t (length s - 1))) |}.
  Definition add (t : table) (s : sym) : table :=
    let code := 256 + t_n t in
    match s with
    | [b] => bump t s (upd (t_bytes t) b code) (t_short t) (t_hash t)
    | [b0; b1] => bump t s (t_bytes t) (upd (t_short t) b0 (upd (t_short t b0) b1 code)) (t_hash t)
    | _ => match t_hash t (h (firstn 3 s)) with Some _ => t | None => bump t s (t_bytes t) (t_short t) (upd (t_hash t) (h (firstn 3 s)) (Some (s, code))) end
    end.

  (* ---- make_table 629-696 ---- *)
  (* concat 170-179 *)
  Definition concat_sym (a b : sym) : sym := firstn 8 (a ++ b).
  Definition first (s : sym) : nat := hd 0 s.
  Definition candidates (t : table) (c1 : nat -> nat) (c2 : nat -> nat -> nat) (frac : nat) : list sym :=
    let enough (n : N) := (N.of_nat (5 * frac / 128) <=? n)%N in
    flat_map (fun p1 =>
      let n1 := (if (p1 =? t_term t)%nat then 65535 else N.of_nat (c1 p1))%N in
      if (n1 =? 0)%N then [] else
      let s1 := t_syms t p1 in
      (if enough ((if (length s1 =? 1)%nat then 8 else 1) * n1)%N then [s1] else []) ++
      (if (first s1 =? term_byte (t_term t)) || (128 <=? frac) || (length s1 =? 8) then [] else
       flat_map (fun p2 =>
         if c2 p1 p2 =? 0 then [] else
         let s2 := t_syms t p2 in
         if first s2 =? term_byte (t_term t) then [] else if enough (N.of_nat (c2 p1 p2)) then [concat_sym s1 s2] else []) (seq 0 (256 + t_n t)))) (seq 0 (256 + t_n t)).
  (* the loop 691-695 *)
  Fixpoint fill (t : table) (l : list sym) : table := match l with [] => t | s :: r => if t_n t <? 255 then fill (add t s) r else t end.
  (* the candidates by gain *)
  Variable order : list sym -> list sym.
  Definition make_table (t : table) (c1 : nat -> nat) (c2 : nat -> nat -> nat) (frac : nat) : table := fill (clear t) (order (candidates t c1 c2 frac)).

  (* ---- build_symbol_table 552-731 ---- *)
  (* compress_count 574-627: the gain and the counters *)
  Variable count : table -> nat -> Z * (nat -> nat) * (nat -> nat -> nat).
  Fixpoint rounds (st best : table) (best_gain : Z) (fracs : list nat) : table :=
    match fracs with
    | [] => best
    | f :: r => let '(gain, c1, c2) := count st f in let '(best', g') := if (best_gain <=? gain)%Z then (st, gain) else (best, best_gain) in rounds (make_table st c1 c2 f) best' g' r
    end.
  (* the terminator 562-572: the byte that is in the sample least often *)
  Fixpoint least_byte (histo : list N) (i : nat) (cur : N) (term : nat) : nat :=
    match histo with [] => term | x :: r => if (x <? cur)%N then least_byte r (S i) x i else least_byte r (S i) cur term end.

  Definition terminator_of (histo : list N) : nat := least_byte histo 0 32768%N 256.

  (* ---- finalize 416-488 ---- *)
  Definition has_suffix (syms : nat -> sym) (n i : nat) (s1 : sym) : bool :=
    existsb (fun k => negb (k =? i) && (2 <? length (syms (256 + k))) && (nth 0 s1 0 =? nth 0 (syms (256 + k)) 0) && (nth 1 s1 0 =? nth 1 (syms (256 + k)) 0)) (seq 0 n).
  Record fin := { fi_codes : nat -> nat; fi_rsum : nat -> nat; fi_j : nat; fi_suffix : nat; fi_syms : nat -> sym }.
  Fixpoint rsum0 (t : table) (r : nat) : nat := match r with 0 => t_n t - t_histo t 0 | S r' => match r' with 0 => 0 | _ => rsum0 t r' + t_histo t r' end end.
  Definition fin_step (n : nat) (x : fin) (i : nat) : fin :=
    let s1 := fi_syms x (256 + i) in
    let put c := upd (fi_syms x) c s1 in
    if length s1 =? 2 then
      if has_suffix (fi_syms x) n i s1 then {| fi_codes := upd (fi_codes x) i (fi_suffix x); fi_rsum := fi_rsum x; fi_j := fi_j x; fi_suffix := S (fi_suffix x); fi_syms := put (fi_suffix x) |}
      else {| fi_codes := upd (fi_codes x) i (fi_j x - 1); fi_rsum := fi_rsum x; fi_j := fi_j x - 1; fi_suffix := fi_suffix x; fi_syms := put (fi_j x - 1) |}
    else let c := fi_rsum x (length s1 - 1) in {| fi_codes := upd (fi_codes x) i c; fi_rsum := upd (fi_rsum x) (length s1 - 1) (S c); fi_j := fi_j x; fi_suffix := fi_suffix x; fi_syms := put c |}.
  Definition renumber (t : table) : fin := fold_left (fin_step (t_n t)) (seq 0 (t_n t)) {| fi_codes := fun _ => 0; fi_rsum := rsum0 t; fi_j := rsum0 t 2; fi_suffix := 0; fi_syms := t_syms t |}.
  Definition ESC_CODE : pcode := {| c_code := 511; c_len := 1 |}.
  Definition finalize (t : table) : ftable :=
    let x := renumber t in
    let bytes b := if 256 <=? t_bytes t b then {| c_code := fi_codes x (t_bytes t b mod 256); c_len := 1 |} else ESC_CODE in
    {| f_bytes := bytes;
       f_short := fun b0 b1 => if 256 <? t_short t b0 b1 then {| c_code := fi_codes x (t_short t b0 b1 mod 256); c_len := 2 |} else bytes b0;
       f_syms := fi_syms x;
       f_hash := fun k => match t_hash t k with Some (_, code) => let c := fi_codes x (code mod 256) in Some (fi_syms x c, {| c_code := c; c_len := length (fi_syms x c) |}) | None => None end;
       f_n := t_n t; f_term := t_term t; f_suffix := fi_suffix x |}.
  (* None: the error of 718-727 *)
  Definition build (term : nat) : option ftable :=
    let best := rounds (new_table term) (new_table 256) (-32768)%Z [8; 38; 68; 98; 108; 128] in
    if t_n best =? 0 then None else Some (finalize best).

  (* ---- compress_bulk 733-788 ---- *)
  Definition lookup (f : ftable) (word : list nat) : pcode :=
    let short := f_short f (nth 0 word 0) (nth 1 word 0) in
    match f_hash f (h (firstn 3 word)) with Some (s, c) => if list_eq_dec Nat.eq_dec s (firstn (length s) word) then c else short | None => short end.
  (* the closure compress 744-764: out[out_curr] and, for an escape, the speculatively written byte *)
  Fixpoint encode_chunk (fuel : nat) (f : ftable) (buf : list nat) (pos fin : nat) : list nat :=
    match fuel with
    | 0 => []
    | S fuel' =>
        if pos <? fin then
          let word := firstn 8 (skipn pos buf) in
          let c := lookup f word in
          (c_code c mod 256) :: (if 256 <=? c_code c then [nth 0 word 0] else []) ++ encode_chunk fuel' f buf (pos + c_len c) fin
        else []
    end.
  (* 767-781: a string in pieces of 511 bytes, with the terminator behind each; the buffer keeps what was in it *)
  Fixpoint encode_pieces (fuel : nat) (f : ftable) (buf : list nat) (s : list nat) : list nat :=
    match fuel, s with
    | S fuel', _ :: _ =>
        let piece := firstn 511 s in
        let buf' := piece ++ term_byte (f_term f) :: skipn (S (length piece)) buf in
        encode_chunk (length piece) f buf' 0 (length piece) ++ encode_pieces fuel' f buf' (skipn 511 s)
    | _, _ => []
    end.
  Definition encode_string (f : ftable) (s : list nat) : list nat := encode_pieces (length s) f (repeat 0 520) s.
End Fsst.

(* ---- decompress_bulk 790-992 ---- *)
Record decoder := { d_syms : nat -> list nat; d_lens : nat -> nat; d_switch : bool }.
Definition out_sym (d : decoder) (c : nat) : list nat := firstn (d_lens d c) (d_syms d c).
(* one byte of escape_mask 811-812; the sums do not carry into the next byte *)
Definition esc_bit (b : nat) : bool := negb (Nat.eqb (Nat.land (Nat.land b 128) (Nat.lxor (Nat.land (255 - b) 127 + 127) 128)) 0).
(* the closure decompress 800-972 on the bytes of a string; None: an escape without its byte, which would be taken from the next string *)
Fixpoint decode_string (fuel : nat) (d : decoder) (l : list nat) : option (list nat) :=
  match fuel with
  | 0 => None
  | S fuel' =>
      match l with
      | a :: b :: c :: e :: r =>
          if esc_bit a then omap (cons b) (decode_string fuel' d (c :: e :: r))
          else if esc_bit b then omap (fun o => out_sym d a ++ c :: o) (decode_string fuel' d (e :: r))
          else if esc_bit c then omap (fun o => out_sym d a ++ out_sym d b ++ e :: o) (decode_string fuel' d r)
          else if esc_bit e then match r with x :: r' => omap (fun o => out_sym d a ++ out_sym d b ++ out_sym d c ++ x :: o) (decode_string fuel' d r') | [] => None end
          else omap (fun o => out_sym d a ++ out_sym d b ++ out_sym d c ++ out_sym d e ++ o) (decode_string fuel' d r)
      | [a; b; c] =>
          if a =? 255 then Some (b :: out_sym d c)
          else if b =? 255 then Some (out_sym d a ++ [c])
          else Some (out_sym d a ++ out_sym d b ++ out_sym d c)
      | [a; b] => if a =? 255 then Some [b] else if b =? 255 then None else Some (out_sym d a ++ out_sym d b)
      | [a] => Some (out_sym d a)
      | [] => Some []
      end
  end.

(* ---- the symbol table in bytes ---- *)
(* export 1052-1079; buf is what was in the buffer *)
Definition val_bytes (s : sym) : list nat := firstn 8 (s ++ repeat 0 8).
Definition magic : list nat := [84; 83; 83; 70].
Definition table_bytes (switch : bool) (suffix term n : nat) (syms : nat -> sym) : list nat :=
  [n mod 256; term mod 256; suffix mod 256; if switch then 1 else 0] ++ magic ++ flat_map (fun i => val_bytes (syms i)) (seq 0 n) ++ map (fun i => length (syms i)) (seq 0 n).
Definition export (buf : list nat) (body : list nat) : list nat := body ++ skipn (length body) buf.
(* FsstDecoder::init 1137-1197 *)
Definition corrupt : list nat := [99; 111; 114; 114; 117; 112; 116; 0].
Definition table_size : nat := 8 + 256 * 8 + 256.
Definition init_decoder (tbl : list nat) : option decoder :=
  if negb (forallb (fun p => Nat.land (fst p) (snd p) =? snd p) (combine (slice 4 8 tbl) magic)) || negb (length tbl =? table_size) then None else
  let n := nth 0 tbl 0 in
  Some {| d_syms := fun c => if c <? n then slice (8 + 8 * c) (16 + 8 * c) tbl else corrupt; d_lens := fun c => if c <? n then nth (8 + 8 * n + c) tbl 0 else 0; d_switch := Nat.odd (nth 3 tbl 0) |}.

(* ---- strings in a buffer ---- *)
Fixpoint strings_of (buf : list nat) (offs : list nat) : list (list nat) :=
  match offs with a :: (b :: _) as t => slice a b buf :: strings_of buf t | _ => [] end.
Fixpoint offsets_from (o : nat) (l : list (list nat)) : list nat := match l with [] => [o] | s :: t => o :: offsets_from (o + length s) t end.
Fixpoint all_some {X} (l : list (option X)) : option (list X) := match l with [] => Some [] | x :: t => obind x (fun y => omap (cons y) (all_some t)) end.
(* compress 1081-1117; least is FSST_LEAST_INPUT_SIZE; None: the errors and the panic when there are no offsets *)
Definition compress (h : list nat -> nat) (least : N) (built : option ftable) (tbl buf : list nat) (offs : list nat) : option (list nat * list nat * list nat) :=
  if negb (length tbl =? table_size) then None else
  if (N.of_nat (length buf) <? least)%N then Some (export tbl (table_bytes false 512 256 0 (fun _ => [])), buf, offs) else
  match built, offs with
  | Some f, _ :: _ => let out := map (encode_string h f) (strings_of buf offs) in Some (export tbl (table_bytes true (f_suffix f) (f_term f) (f_n f) (f_syms f)), concat out, offsets_from 0 out)
  | _, _ => None
  end.
(* decompress 1263-1281, into buffers of eight times the size as the callers have; None: errors, and no offsets *)
Definition decompress (tbl buf : list nat) (offs : list nat) : option (list nat * list nat) :=
  obind (init_decoder tbl) (fun d =>
  if negb (d_switch d) then Some (buf, offs) else
  match offs with
  | [] => None
  | _ => omap (fun out => (concat out, offsets_from 0 out)) (all_some (map (fun s => decode_string (S (length s)) d s) (strings_of buf offs)))
  end).
