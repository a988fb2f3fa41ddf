(* Files of format 2: where the writer puts pages, global buffers, column metadata and the footer
   (rust/lance-file/src/v2/writer.rs 155-226, 391-421, 435-447, 462-520, 524-595, 622-717) and how a reader finds them again
   (rust/lance-file/src/v2/reader.rs 311-324, 372-597, 614-683, 1220-1307; rust/lance-encoding/src/version.rs 40-62).
   Simplifications: bytes are numbers; the protobuf bytes of a column's metadata are made and read by a given pair of
   functions (prost), those of the file descriptor are kept as they are; what the encoders hand over (pages, external
   buffers, column buffers) is given; positions and sizes are numbers without a bound, cut off where they are written in a
   fixed number of bytes; None is an error or a panic; reads past the end of the file give None; the numbers of bytes
   that are only reported (num_data_bytes and the like) are left out. *)
From Coq Require Import List Arith NArith Bool Lia.
From Verif Require Import Lib PageModel SerdeModel.
From Verif Require BlobModel.
Import ListNotations.
Local Open Scope nat_scope.

Definition pos_of (out : list N) : N := N.of_nat (length out).
(* writer.rs 42-43, 167-172 *)
Definition put_buffer (out b : list N) : list N := BlobModel.do_write_buffer 72%N out b.

(* the encoding of a page: ArrayEncoding of 2.0 or PageLayout of 2.1 (an Any with its type) *)
Inductive penc := Legacy (x : list N) | Structural (x : list N).
Record page := { pg_offs : list N; pg_sizes : list N; pg_enc : penc; pg_rows : N; pg_prio : N }.
(* pbfile::ColumnMetadata *)
Record cmeta := { cm_pages : list page; cm_offs : list N; cm_sizes : list N; cm_enc : option (list N) }.
(* writer.rs 108-115 *)
Definition initial_column : cmeta := {| cm_pages := []; cm_offs := []; cm_sizes := []; cm_enc := None |}.
(* EncodedPage *)
Record epage := { ep_col : nat; ep_bufs : list (list N); ep_enc : penc; ep_rows : N; ep_prio : N }.
(* the state of FileWriter: bytes written, column_metadata, global_buffers *)
Record wr := { w_out : list N; w_cols : list cmeta; w_glob : list (N * N) }.

(* ---- writing ---- *)
(* write_page 179-187 *)
Fixpoint put_buffers (out : list N) (bufs : list (list N)) : list N * list N * list N :=
  match bufs with
  | [] => ([], [], out)
  | b :: t => let '(o, s, out') := put_buffers (put_buffer out b) t in (pos_of out :: o, N.of_nat (length b) :: s, out')
  end.
Fixpoint upd {A} (k : nat) (f : A -> A) (l : list A) : option (list A) :=
  match l, k with
  | [], _ => None
  | x :: t, 0 => Some (f x :: t)
  | x :: t, S k' => omap (cons x) (upd k' f t)
  end.
Definition add_page (p : page) (c : cmeta) : cmeta := {| cm_pages := cm_pages c ++ [p]; cm_offs := cm_offs c; cm_sizes := cm_sizes c; cm_enc := cm_enc c |}.
(* write_page 179-208 *)
Definition write_page (w : wr) (p : epage) : option wr :=
  let '(o, s, out) := put_buffers (w_out w) (ep_bufs p) in
  omap (fun cols => {| w_out := out; w_cols := cols; w_glob := w_glob w |})
       (upd (ep_col p) (add_page {| pg_offs := o; pg_sizes := s; pg_enc := ep_enc p; pg_rows := ep_rows p; pg_prio := ep_prio p |}) (w_cols w)).
Fixpoint write_pages (w : wr) (ps : list epage) : option wr := match ps with [] => Some w | p :: t => obind (write_page w p) (fun w' => write_pages w' t) end.
(* what happens before the file is finished: external buffers and pages of write_batch 347-391 (and of the flush in
   finish 530-546), add_global_buffer 462-468 *)
Inductive op := OExternal (bufs : list (list N)) | OPage (p : epage) | OGlobal (b : list N).
Definition step (w : wr) (o : op) : option wr :=
  match o with
  | OExternal bufs => Some {| w_out := fold_left put_buffer bufs (w_out w); w_cols := w_cols w; w_glob := w_glob w |}
  | OPage p => write_page w p
  | OGlobal b => Some {| w_out := put_buffer (w_out w) b; w_cols := w_cols w; w_glob := w_glob w ++ [(pos_of (w_out w), N.of_nat (length b))] |}
  end.
Fixpoint steps (w : wr) (os : list op) : option wr := match os with [] => Some w | o :: t => obind (step w o) (fun w' => steps w' t) end.
(* what the encoder of a field hands over at the end: EncodedColumn and its external buffers *)
Record fcol := { fc_pages : list epage; fc_bufs : list (list N); fc_enc : list N }.
Record fwriter := { fw_external : list (list N); fw_cols : list fcol }.
(* finish_writers 485-494: buffer_pos advances by the size of the buffer *)
Fixpoint put_column_buffers (pos : N) (out : list N) (bufs : list (list N)) : list N * list N * list N :=
  match bufs with
  | [] => ([], [], out)
  | b :: t => let '(o, s, out') := put_column_buffers (pos + N.of_nat (length b))%N (put_buffer out b) t in (pos :: o, N.of_nat (length b) :: s, out')
  end.
(* finish_writers 480-502, one column *)
Definition finish_column (idx : nat) (w : wr) (c : fcol) : option wr :=
  obind (write_pages w (fc_pages c)) (fun w1 =>
  let '(o, s, out) := put_column_buffers (pos_of (w_out w1)) (w_out w1) (fc_bufs c) in
  omap (fun cols => {| w_out := out; w_cols := cols; w_glob := w_glob w1 |})
       (upd idx (fun m => {| cm_pages := cm_pages m; cm_offs := cm_offs m ++ o; cm_sizes := cm_sizes m ++ s; cm_enc := Some (fc_enc c) |}) (w_cols w1))).
Fixpoint finish_columns (idx : nat) (w : wr) (cs : list fcol) : option (nat * wr) :=
  match cs with [] => Some (idx, w) | c :: t => obind (finish_column idx w c) (fun w' => finish_columns (S idx) w' t) end.
(* finish_writers 470-512: the external buffers are written without padding *)
Fixpoint finish_writers (idx : nat) (w : wr) (fs : list fwriter) : option wr :=
  match fs with
  | [] => if idx =? length (w_cols w) then Some w else None
  | f :: t => obind (finish_columns idx {| w_out := w_out w ++ concat (fw_external f); w_cols := w_cols w; w_glob := w_glob w |} (fw_cols f)) (fun p => finish_writers (fst p) (snd p) t)
  end.

Definition pair_bytes (p : N * N) : list N := le_bytes 8 (fst p) ++ le_bytes 8 (snd p).
Definition MAGIC : list N := [76; 65; 78; 67]%N.

Section Codec.
  (* prost: ColumnMetadata::encode_to_vec and decode *)
  Variable enc_col : cmeta -> list N.
  Variable dec_col : list N -> option cmeta.

  (* write_column_metadatas 393-415 *)
  Fixpoint put_metas (out : list N) (cols : list cmeta) : list (N * N) * list N :=
    match cols with
    | [] => ([], out)
    | c :: t => let '(ps, out') := put_metas (out ++ enc_col c) t in ((pos_of out, N.of_nat (length (enc_col c))) :: ps, out')
    end.
  (* finish 553-590 and concat_lance_footer 637-714, behind the file descriptor *)
  Definition put_footer (out : list N) (gbo : list (N * N)) (cols : list cmeta) (ncols : N) (nums : N * N) : list N :=
    let '(ps, out2) := put_metas out cols in
    let out3 := out2 ++ flat_map pair_bytes ps in
    let out4 := out3 ++ flat_map pair_bytes gbo in
    out4 ++ le_bytes 8 (pos_of out) ++ le_bytes 8 (pos_of out2) ++ le_bytes 8 (pos_of out3) ++ le_bytes 4 (N.of_nat (length gbo)) ++ le_bytes 4 ncols
         ++ le_bytes 2 (fst nums) ++ le_bytes 2 (snd nums) ++ MAGIC.
  (* version_to_numbers 516-523 *)
  Definition numbers (v21 : bool) : N * N := if v21 then (2, 1)%N else (0, 3)%N.
  (* a whole file: initialize (one initial entry per column), the operations, finish; write_global_buffers 435-447 *)
  Definition write_file (v21 : bool) (ncols : nat) (os : list op) (fs : list fwriter) (desc : list N) : option (list N) :=
    obind (steps {| w_out := []; w_cols := repeat initial_column ncols; w_glob := [] |} os) (fun w =>
    obind (finish_writers 0 w fs) (fun w1 =>
    Some (put_footer (w_out w1 ++ desc) ((pos_of (w_out w1), N.of_nat (length desc)) :: w_glob w1) (w_cols w1) (N.of_nat ncols) (numbers v21)))).
  (* concat_lance_footer 622-717: the version is that of LanceFileVersion::default() *)
  Definition concat_footer (data : list N) (cols : list cmeta) (desc : option (list N)) : list N :=
    match desc with
    | Some d => put_footer (data ++ d) [(pos_of data, N.of_nat (length d))] cols (N.of_nat (length cols)) (2, 0)%N
    | None => put_footer data [] cols (N.of_nat (length cols)) (2, 0)%N
    end.

  (* ---- reading ---- *)
  Definition sub_bytes (b : list N) (s e : N) : option (list N) :=
    if ((s <=? e) && (e <=? N.of_nat (length b)))%N then Some (slice (N.to_nat s) (N.to_nat e) b) else None.
  Definition read_le (n : N) (b : list N) (off : N) : option N := omap of_le_bytes (sub_bytes b off (off + n)%N).
  Record footer := { ft_meta : N; ft_cmo : N; ft_gbo : N; ft_nglob : N; ft_ncols : N; ft_major : N; ft_minor : N }.
  (* decode_footer 386-438 *)
  Definition decode_footer (b : list N) : option footer :=
    if length b <? 40 then None else
    let c := skipn (length b - 40) b in
    obind (read_le 8 c 0) (fun meta => obind (read_le 8 c 8) (fun cmo => obind (read_le 8 c 16) (fun gbo =>
    obind (read_le 4 c 24) (fun ng => obind (read_le 4 c 28) (fun nc => obind (read_le 2 c 32) (fun ma => obind (read_le 2 c 34) (fun mi =>
    if ((ma =? 0) && (mi =? 2))%N then None
    else if list_eq_dec N.eq_dec (skipn 36 c) MAGIC
    then Some {| ft_meta := meta; ft_cmo := cmo; ft_gbo := gbo; ft_nglob := ng; ft_ncols := nc; ft_major := ma; ft_minor := mi |} else None))))))).
  (* try_from_major_minor, version.rs 40-54 *)
  Inductive fversion := FLegacy | F20 | F21.
  Definition version_of (major minor : N) : option fversion :=
    match major, minor with
    | 0%N, 0%N | 0%N, 1%N | 0%N, 2%N => Some FLegacy
    | 0%N, 3%N | 2%N, 0%N => Some F20
    | 2%N, 1%N => Some F21
    | _, _ => None
    end.
  (* read_tail 372-382 *)
  Definition read_tail (block : nat) (file : list N) : list N := skipn (length file - block) file.
  (* optimistic_tail_read 467-490 *)
  Definition tail_from (tail : list N) (start : N) (file : list N) : option (list N) :=
    let len := N.of_nat (length file) in
    if (len <? start)%N then None else
    let needed := (len - start)%N in
    if (needed <=? N.of_nat (length tail))%N then Some (skipn (N.to_nat (N.of_nat (length tail) - needed)) tail)
    else omap (fun missing => missing ++ tail) (sub_bytes file (len - needed) (len - needed + (needed - N.of_nat (length tail)))%N).
  Definition aligned_ok (v : fversion) (pos : N) : bool := match v with F21 => (pos mod 64 =? 0)%N | _ => true end.
  (* do_decode_gbo_table 492-514 *)
  Fixpoint decode_gbo (n : nat) (b : list N) (off : N) (v : fversion) : option (list (N * N)) :=
    match n with
    | 0 => Some []
    | S n' => obind (read_le 8 b off) (fun p => if aligned_ok v p then obind (read_le 8 b (off + 8)%N) (fun s => omap (cons (p, s)) (decode_gbo n' b (off + 16)%N v)) else None)
    end.
  (* read_all_column_metadata 441-464: the offset is computed with 32 bits *)
  Fixpoint read_cols (idx n : nat) (cmo bytes : list N) (start : N) : option (list cmeta) :=
    match n with
    | 0 => Some []
    | S n' =>
        let off := ((N.of_nat idx * 16) mod 2 ^ 32)%N in
        obind (read_le 8 cmo off) (fun p => obind (read_le 8 cmo (off + 8)%N) (fun l =>
        if (p <? start)%N then None
        else obind (sub_bytes bytes (p - start) (p - start + l)%N) (fun b => obind (dec_col b) (fun c => omap (cons c) (read_cols (S idx) n' cmo bytes start)))))
    end.
  Definition read_all_columns (bytes : list N) (f : footer) : option (list cmeta) :=
    let size := (16 * ft_ncols f)%N in
    if (N.of_nat (length bytes) <? size)%N then None
    else read_cols 0 (N.to_nat (ft_ncols f)) (skipn (length bytes - N.to_nat size) bytes) bytes (ft_meta f).
  (* meta_to_col_infos 614-683 with fetch_encoding 599-612: what makes it panic; the infos hold what is in the metadata *)
  Definition page_ok (v : fversion) (p : page) : bool :=
    match v, pg_enc p with F20, Legacy _ => true | F20, Structural _ => false | _, Structural _ => true | _, Legacy _ => false end &&
    forallb (fun q => aligned_ok v (fst q)) (combine (pg_offs p) (pg_sizes p)).
  Definition cols_ok (v : fversion) (cols : list cmeta) : bool :=
    forallb (fun c => forallb (page_ok v) (cm_pages c) && match cm_enc c with Some _ => true | None => false end) cols.
  Record opened := { op_desc : list N; op_cols : list cmeta; op_glob : list (N * N); op_version : fversion }.
  (* read_all_metadata 553-597 *)
  Definition open_file (block : nat) (file : list N) : option opened :=
    let tail := read_tail block file in
    obind (decode_footer tail) (fun f =>
    obind (version_of (ft_major f) (ft_minor f)) (fun v =>
    obind (tail_from tail (ft_gbo f) file) (fun gb =>
    obind (decode_gbo (N.to_nat (ft_nglob f)) gb 0 v) (fun gbo =>
    match gbo with
    | [] => None
    | (start, size) :: _ =>
        obind (tail_from tail start file) (fun all =>
        obind (sub_bytes all 0 size) (fun desc =>
        if ((ft_meta f <? start) || (ft_gbo f <? start))%N then None else
        obind (sub_bytes all (ft_meta f - start) (ft_gbo f - start)) (fun cb =>
        obind (read_all_columns cb f) (fun cols =>
        if cols_ok v cols then Some {| op_desc := desc; op_cols := cols; op_glob := gbo; op_version := v |} else None))))
    end)))).
  (* try_from_mini_lance 1220-1257 and try_from_self_described_lance 1259-1307: the page table, and the descriptor *)
  Definition read_mini (b : list N) : option (list cmeta) :=
    obind (decode_footer b) (fun f =>
    obind (sub_bytes b (ft_meta f) (ft_gbo f)) (fun cb =>
    obind (read_all_columns cb f) (fun cols =>
    obind (version_of (ft_major f) (ft_minor f)) (fun v => if cols_ok v cols then Some cols else None)))).
  Definition read_self_described (b : list N) : option (list N * list cmeta) :=
    obind (decode_footer b) (fun f =>
    obind (version_of (ft_major f) (ft_minor f)) (fun v =>
    obind (sub_bytes b (ft_gbo f) (N.of_nat (length b))) (fun gb =>
    obind (decode_gbo (N.to_nat (ft_nglob f)) gb 0 v) (fun gbo =>
    match gbo with
    | [] => None
    | (start, size) :: _ =>
        obind (sub_bytes b start (start + size)%N) (fun desc =>
        obind (sub_bytes b (ft_meta f) (ft_gbo f)) (fun cb =>
        obind (read_all_columns cb f) (fun cols => if cols_ok v cols then Some (desc, cols) else None)))
    end)))).
  (* the bytes at a position, as the readers ask for them (read_global_buffer 361-370 and the page schedulers) *)
  Definition bytes_of (file : list N) (q : N * N) : option (list N) := sub_bytes file (fst q) (fst q + snd q)%N.
End Codec.
