(* The inverted index and the queries over it: rust/lance-index/src/scalar/inverted/{index,builder}.rs, the execution of
   rust/lance/src/io/exec/fts.rs and the plan of rust/lance/src/dataset/scanner.rs 1320-1487 and 1517-1667.
   Simplifications: a text is the list of the tokens the tokenizer gives for it, with their positions; posting lists are found by
   token, not by a token id with an offset into a file; temporary files of the builder and the shards of tokens are left out, new
   documents come in any order (a list); positions are always stored; an index file is read back as it was written. *)
From Coq Require Import List Arith NArith ZArith QArith Bool Lia.
From Verif Require Import Lib FtsModel.
Import ListNotations.
Local Open Scope nat_scope.

Definition token := nat.
(* a row with the tokens of its text, in the order of the token stream; a row without text (null) is not a document, builder.rs 163-166 *)
Record doc := { dc_row : N; dc_toks : list (token * Z) }.
Definition qnat (n : nat) : Q := inject_Z (Z.of_nat n).
Definition qmax (a b : Q) : Q := if Qle_bool b a then a else b.

(* ---- DocSet, index.rs 869-955 ---- *)
Record docset := { ds_count : list (N * nat); ds_total : nat }.
Definition ds_len (d : docset) : nat := length (ds_count d).
(* average_length 886-888 *)
Definition avgdl (d : docset) : Q := (qnat (ds_total d) / qnat (ds_len d))%Q.
Fixpoint get (r : N) (l : list (N * nat)) : option nat := match l with [] => None | (x, n) :: l => if N.eqb x r then Some n else get r l end.
Definition del (r : N) (l : list (N * nat)) : list (N * nat) := filter (fun e => negb (N.eqb (fst e) r)) l.
(* num_tokens 947-949 *)
Definition num_tokens (d : docset) (r : N) : nat := match get r (ds_count d) with Some n => n | None => 0 end.
(* add 951-954 *)
Definition ds_add (d : docset) (r : N) (n : nat) : docset := {| ds_count := (r, n) :: del r (ds_count d); ds_total := ds_total d + n |}.
(* remap 931-944; the mapping is a hash map, whose entries come in any order; ds_total stays *)
Definition ds_remap1 (l : list (N * nat)) (m : N * option N) : list (N * nat) :=
  match snd m with
  | Some new => match get (fst m) l with Some n => (new, n) :: del new (del (fst m) l) | None => l end
  | None => del (fst m) l
  end.
Definition ds_remap (mapping : list (N * option N)) (d : docset) : docset := {| ds_count := fold_left ds_remap1 mapping (ds_count d); ds_total := ds_total d |}.
(* load 909-929 after to_batch 890-907 *)
Definition ds_load (d : docset) : docset := {| ds_count := ds_count d; ds_total := list_sum (map snd (ds_count d)) |}.

Section Index.
  Variable weight : nat -> nat -> Q. (* idf(nq, num_docs) * (K1 + 1.0) *)
  (* the closure of bm25_search 174-178, also in to_batch 755-760; K1 = 1.2, B = 0.75 *)
  Definition norm (len : nat) (avg : Q) : Q := ((6 # 5) * (1 - (3 # 4) + (3 # 4) * qnat len / avg))%Q.
  Definition tf (len : nat) (avg f : Q) : Q := (f / (f + norm len avg))%Q.
  Definition bm25 (d : docset) (r : N) (f : Q) : Q := tf (num_tokens d r) (avgdl d) f.

  (* ---- posting lists ---- *)
  Definition entry := (N * (Q * list Z))%type. (* row, frequency, positions *)
  (* the batch of a stored list, 476-546 and 629-662 *)
  Definition entries_of (p : plist) : list entry := map (fun e => (fst (fst e), (snd (fst e), snd e))) (combine (pl_docs p) (pl_pos p)).
  (* sorted_unstable_by_key 744 *)
  Fixpoint insert (e : entry) (l : list entry) : list entry := match l with [] => [e] | x :: l' => if N.leb (fst e) (fst x) then e :: l else x :: insert e l' end.
  Definition isort (l : list entry) : list entry := fold_right insert [] l.
  (* PostingListBuilder::to_batch 730-779 with documents *)
  Definition to_batch (d : docset) (l : list entry) : plist :=
    let l := isort l in
    {| pl_docs := map (fun e => (fst e, fst (snd e))) l; pl_pos := map (fun e => snd (snd e)) l;
       pl_max := Some (fold_left (fun m e => qmax m (bm25 d (fst e) (fst (snd e)))) l 0 * weight (length l) (ds_len d))%Q |}.
  (* remap 688-726 *)
  Fixpoint mapped (r : N) (m : list (N * option N)) : option (option N) := match m with [] => None | (x, y) :: m => if N.eqb x r then Some y else mapped r m end.
  Definition new_row (m : list (N * option N)) (r : N) : option N := match mapped r m with Some y => y | None => Some r end.
  Definition remap_entries (m : list (N * option N)) (l : list entry) : list entry := flat_map (fun e => match new_row m (fst e) with Some r => [(r, snd e)] | None => [] end) l.

  (* InvertedIndex 73-79 *)
  Record inverted := { ix_lists : list (token * plist); ix_docs : docset }.
  Fixpoint find_list (t : token) (l : list (token * plist)) : option plist := match l with [] => None | (x, p) :: l => if x =? t then Some p else find_list t l end.

  (* IndexWorker::add, builder.rs 450-485: the entry of a document in the list of a token *)
  Definition positions_of (t : token) (d : doc) : list Z := map snd (filter (fun e => fst e =? t) (dc_toks d)).
  Definition entry_of (t : token) (d : doc) : list entry := match positions_of t d with [] => [] | ps => [(dc_row d, (qnat (length ps), ps))] end.
  Definition add_tokens (l : list token) (new : list token) : list token := fold_left (fun l t => if existsb (Nat.eqb t) l then l else l ++ [t]) new l.
  (* update, builder.rs 99-107, 110-257, 320-371 and 606-670: new documents, then every list of old or new tokens *)
  Definition ix_update (ix : inverted) (new : list doc) : inverted :=
    let docs := fold_left (fun ds d => ds_add ds (dc_row d) (length (dc_toks d))) new (ix_docs ix) in
    let toks := add_tokens (map fst (ix_lists ix)) (flat_map (fun d => map fst (dc_toks d)) new) in
    {| ix_lists := map (fun t => (t, to_batch docs (flat_map (entry_of t) new ++ match find_list t (ix_lists ix) with Some p => entries_of p | None => [] end))) toks;
       ix_docs := ds_load docs |}.
  Definition ix_empty : inverted := {| ix_lists := []; ix_docs := {| ds_count := []; ds_total := 0 |} |}.
  (* remap, builder.rs 259-308 *)
  Definition ix_remap (m : list (N * option N)) (ix : inverted) : inverted :=
    let docs := ds_remap m (ix_docs ix) in
    {| ix_lists := map (fun e => (fst e, to_batch docs (remap_entries m (entries_of (snd e))))) (ix_lists ix); ix_docs := ds_load docs |}.

  (* ---- queries ---- *)
  Variable srt : list piter -> list piter.
  Variable popmin : list (N * Q) -> list (N * Q).
  (* full_text_search 111-133 with bm25_search 139-180: the tokens of the query; unknown tokens are left out, or end a phrase query.
     limit is usize::MAX without one: here any number that is at least the number of rows; the factor is 1.0 *)
  Fixpoint known (ix : inverted) (q : list token) : list plist :=
    match q with [] => [] | t :: q => match find_list t (ix_lists ix) with Some p => p :: known ix q | None => known ix q end end.
  Definition ix_search (ix : inverted) (sel : N -> bool) (phrase : bool) (limit : nat) (q : list token) : option (list (N * Q)) :=
    let lists := known ix (if phrase then q else nodup Nat.eq_dec q) in
    let run := wand_search sel (fun n => weight n (ds_len (ix_docs ix))) (bm25 (ix_docs ix)) (fun s => s) srt popmin phrase limit lists in
    if phrase then if negb (length lists =? length q) then Some [] else run else run.

  (* flat_bm25_search 1019-1069 and the filter of flat_bm25_search_stream 1104-1110: rows outside the index; phrases are not looked at *)
  Definition flat_score (ix : inverted) (q : list token) (d : doc) : Q :=
    let q := nodup Nat.eq_dec q in
    let doc_tokens := filter (fun t => existsb (Nat.eqb t) q) (map fst (dc_toks d)) in
    let nd := ds_len (ix_docs ix) in
    fold_left (fun s t =>
      let f := qnat (length (filter (Nat.eqb t) doc_tokens)) in
      let w := match find_list t (ix_lists ix) with Some p => weight (pl_len p) nd | None => weight 1 nd end in
      (s + w * tf (length doc_tokens) (avgdl (ix_docs ix)) f)%Q) q 0%Q.
  Definition flat_search (ix : inverted) (q : list token) (docs : list doc) : list (N * Q) :=
    filter (fun e => negb (Qle_bool (snd e) 0)) (map (fun d => (dc_row d, flat_score ix q d)) docs).

  (* ---- the plan, scanner.rs 1517-1667 ---- *)
  (* one column: its index and its rows outside the index *)
  Record column := { cl_index : inverted; cl_rest : list doc }.
  (* AggregateExec: the greatest score of every row *)
  Fixpoint group_max (l : list (N * Q)) : list (N * Q) :=
    match l with
    | [] => []
    | (r, s) :: l =>
        let g := group_max l in
        if existsb (fun e => N.eqb (fst e) r) g then map (fun e => if N.eqb (fst e) r then (r, qmax s (snd e)) else e) g else (r, s) :: g
    end.
  (* SortExec by score, descending; ties in any order: [rank] *)
  Variable rank : list (N * Q) -> list (N * Q).
  Definition take_limit (limit : option nat) {A} (l : list A) : list A := match limit with Some n => firstn n l | None => l end.
  Fixpoint search_columns (cols : list column) (sel : N -> bool) (phrase : bool) (limit : nat) (q : list token) : option (list (N * Q)) :=
    match cols with
    | [] => Some []
    | c :: cols =>
        match ix_search (cl_index c) sel phrase limit q, search_columns cols sel phrase limit q with
        | Some a, Some b => Some (a ++ b)
        | _, _ => None
        end
    end.
  (* fts: the index is asked for limit rows and the sorted result is cut at limit; the rows outside the index are filtered as those inside *)
  Definition fts_rows (cols : list column) : nat := list_sum (map (fun c => length (ds_count (ix_docs (cl_index c)))) cols).
  Definition fts (cols : list column) (sel : N -> bool) (phrase : bool) (limit : option nat) (q : list token) : option (list (N * Q)) :=
    let k := match limit with Some n => n | None => fts_rows cols end in
    match search_columns cols sel phrase k q with
    | None => None
    | Some a =>
        let b := flat_map (fun c => flat_search (cl_index c) q (filter (fun d => sel (dc_row d)) (cl_rest c))) cols in
        Some (take_limit limit (rank (group_max (a ++ b))))
    end.
  (* create_plan 1341-1353 and 1484-1487 without ordering and with a prefilter: the limit node (2322-2328) skips the offset and takes limit *)
  Definition scan_fts (cols : list column) (sel : N -> bool) (phrase : bool) (limit offset : option nat) (q : list token) : option (list (N * Q)) :=
    omap (fun l =>
      if (match limit with Some n => 0 <? n | None => false end) || match offset with Some _ => true | None => false end
      then take_limit limit (skipn (match offset with Some o => o | None => 0 end) l)
      else l) (fts cols sel phrase limit q).
End Index.
