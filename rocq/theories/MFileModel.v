(* The file of a manifest: messages with their length before them, and the footer: rust/lance-io/src/traits.rs and utils.rs,
   rust/lance-table/src/io/manifest.rs, rust/lance/src/dataset.rs.
   Simplifications: a file is a list of bytes; messages are their bytes (what is in them is C07 and others); sizes of files are
   unbounded, the numbers written in them are not; what write_manifest writes before (values of dictionaries) is any list of bytes.
   None: an error or a panic. *)
From Coq Require Import List ZArith Bool.
Import ListNotations.

(* to_le_bytes and LittleEndian::read_* *)
Fixpoint le (k : nat) (n : Z) : list Z := match k with 0 => [] | S k => (n mod 256 :: le k (n / 256))%Z end.
Fixpoint of_le (l : list Z) : Z := match l with [] => 0%Z | b :: r => (b + 256 * of_le r)%Z end.
(* MAGIC: rust/lance-table/src/format.rs, "LANC"; MAJOR_VERSION 0 and MINOR_VERSION 2 *)
Definition magic : list Z := [76; 65; 78; 67]%Z.
(* WriteExt::write_protobuf 56-65: the length as u32, the message; the position before them *)
Definition write_message (w m : list Z) : list Z * nat := (w ++ le 4 (Z.of_nat (length m)) ++ m, length w).
(* write_magics 67-79 *)
Definition write_magics (w : list Z) (pos : nat) : list Z := w ++ le 8 (Z.of_nat pos) ++ le 2 0 ++ le 2 2 ++ magic.
(* do_write_manifest 123-139 and write_manifest_file_to_path 1692-1708: the section of indices, if any, then the manifest, which has the
   position of that section *)
Definition write_file (w : list Z) (indices : option (list Z)) (manifest : option nat -> list Z) : list Z :=
  let '(w, section) := match indices with Some i => let '(w, p) := write_message w i in (w, Some p) | None => (w, None) end in
  let '(w, pos) := write_message w (manifest section) in
  write_magics w pos.
(* get_range: the range must be in the file *)
Definition get_range (f : list Z) (s e : nat) : option (list Z) :=
  if (s <=? e) && (e <=? length f) then Some (firstn (e - s) (skipn s f)) else None.
(* read_manifest 30-101; prefetch: PREFETCH_SIZE *)
Definition read_manifest (prefetch : nat) (f : list Z) : option (list Z) :=
  let size := length f in
  match get_range f (size - prefetch) size with
  | None => None
  | Some buf =>
    let n := length buf in
    if n <? 16 then None
    else if negb (if list_eq_dec Z.eq_dec (skipn (n - 4) buf) magic then true else false) then None
    else
      let pos := of_le (firstn 8 (skipn (n - 16) buf)) in
      if (2 ^ 63 <=? pos)%Z || (Z.of_nat size <? pos)%Z then None
      else
        let len := size - Z.to_nat pos in
        match (if len <=? n then Some (skipn (n - len) buf)
               else option_map (fun b2 => b2 ++ buf) (get_range f (Z.to_nat pos) (size - prefetch))) with
        | None => None
        | Some b =>
          if length b <? 20 then None
          else let m := firstn (length b - 20) (skipn 4 b) in
               if (Z.of_nat (length m) =? of_le (firstn 4 b))%Z then Some m else None
        end
  end.
(* read_message 84-104; block: the block size of the reader *)
Definition read_message (block : nat) (f : list Z) (pos : nat) : option (list Z) :=
  let size := length f in
  if size <? pos then None
  else
    let e := Nat.min (pos + block) size in
    match get_range f pos e with
    | None => None
    | Some buf =>
      if length buf <? 4 then None
      else
        let len := Z.to_nat (of_le (firstn 4 buf)) in
        if length buf <? len + 4
        then match get_range f e (Nat.min (4 + pos + len) size) with
             | None => None
             | Some rest => let b := buf ++ rest in if length b <? len + 4 then None else Some (firstn len (skipn 4 b))
             end
        else Some (firstn len (skipn 4 buf))
    end.
(* read_manifest_indexes 104-121; section: index_section of the manifest *)
Definition read_indices (block : nat) (f : list Z) (section : option nat) : option (option (list Z)) :=
  match section with Some p => option_map Some (read_message block f p) | None => Some None end.
