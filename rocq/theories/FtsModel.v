(* Full-text search over an inverted index: rust/lance-index/src/scalar/inverted/wand.rs and index.rs, and the plan of
   rust/lance/src/dataset/scanner.rs 1517-1667 with rust/lance/src/io/exec/fts.rs.
   Simplifications: scores, frequencies and bounds are rational numbers with exact arithmetic (f32 in the code); the inverse
   document frequency, a logarithm, is a parameter; lists fit in memory and are read at once; tokens are numbers, and the
   tokenizer (an external crate) is a parameter that gives every token with its position; [srt] stands for sort_unstable and
   [popmin] for BinaryHeap::pop, whose results on ties the code does not fix. None is a panic. *)
From Coq Require Import List Arith NArith ZArith QArith Bool Lia.
From Verif Require Import Lib.
Import ListNotations.
Local Open Scope nat_scope.

(* PostingList, index.rs 547-552: rows with frequencies, the greatest score, and the positions of every row *)
Record plist := { pl_docs : list (N * Q); pl_max : option Q; pl_pos : list (list Z) }.
Definition pl_len (p : plist) : nat := length (pl_docs p).
(* PostingIterator, wand.rs 20-27, without the token (used by no modelled function) and the mask (one for all, see [sel]) *)
Record piter := { it_position : Z; it_list : plist; it_index : nat; it_bound : Q }.
(* PostingIterator::doc 89-95 *)
Definition it_doc (i : piter) : option (N * Q) := nth_error (pl_docs (it_list i)) (it_index i).
Definition it_row (i : piter) : option N := omap fst (it_doc i).
Definition at_index (i : piter) (k : nat) : piter := {| it_position := it_position i; it_list := it_list i; it_index := k; it_bound := it_bound i |}.

(* the order of iterators, Ord for PostingIterator 43-52 and DocInfo, index.rs 860-864 *)
Definition it_leb (a b : piter) : bool :=
  match it_row a, it_row b with
  | Some x, Some y => N.leb x y
  | Some _, None => true
  | None, Some _ => false
  | None, None => true
  end.

(* partition_point: the number of leading elements that satisfy the predicate *)
Fixpoint leading {A} (f : A -> bool) (l : list A) : nat := match l with [] => 0 | x :: l => if f x then S (leading f l) else 0 end.

(* Wand, wand.rs 116-122 *)
Record wand := { wd_threshold : Q; wd_cur : option N; wd_posts : list piter; wd_cands : list (N * Q) }.

Section Wand.
  Variable sel : N -> bool. (* the rows the prefilter selects *)
  Variable idf : nat -> Q. (* idf(nq, num_docs) * (K1 + 1.0), index.rs 958-961, for the number of documents of the index *)
  Variable scorer : N -> Q -> Q. (* the closure of bm25_search, index.rs 174-178 *)
  Variable scale : Q -> Q. (* multiplication with the factor *)
  Variable srt : list piter -> list piter.
  Variable popmin : list (N * Q) -> list (N * Q).

  (* PostingIterator::new 55-82 *)
  Definition it_new (position : Z) (list : plist) : piter :=
    {| it_position := position; it_list := list; it_index := leading (fun d => negb (sel (fst d))) (pl_docs list);
       it_bound := match pl_max list with Some m => m | None => idf (pl_len list) end |}.
  (* PostingIterator::next 103-113: to the first selected row that is not less than [least] *)
  Definition it_next (least : N) (i : piter) : piter :=
    let k := it_index i + leading (fun d => N.ltb (fst d) least) (skipn (it_index i) (pl_docs (it_list i))) in
    at_index i (k + leading (fun d => negb (sel (fst d))) (skipn k (pl_docs (it_list i)))).

  (* Wand::new 125-133 *)
  Definition is_live (i : piter) : bool := match it_doc i with Some _ => true | None => false end.
  Definition wand_new (posts : list piter) : wand := {| wd_threshold := 0%Q; wd_cur := None; wd_posts := filter is_live posts; wd_cands := [] |}.

  (* find_pivot_term 231-240 *)
  Fixpoint find_pivot (threshold acc : Q) (l : list piter) : option piter :=
    match l with
    | [] => None
    | i :: l => let acc := (acc + it_bound i)%Q in if Qle_bool threshold acc then Some i else find_pivot threshold acc l
    end.
  (* pick_term 259-273: [best] is least_length, None being usize::MAX *)
  Fixpoint pick (least : N) (l : list piter) (i : nat) (best : option nat) (picked : nat) : option nat :=
    match l with
    | [] => Some picked
    | p :: l =>
        match it_row p with
        | None => None
        | Some r =>
            if N.leb least r then Some picked
            else
              if match best with None => true | Some b => pl_len (it_list p) <? b end
              then pick least l (S i) (Some (pl_len (it_list p))) i
              else pick least l (S i) best picked
        end
    end.
  (* move_term 245-257 *)
  Fixpoint drop_dead (l : list piter) : list piter := (* on the reversed list *)
    match l with [] => [] | i :: l' => if is_live i then l else drop_dead l' end.
  Definition pop_dead (l : list piter) : list piter := rev (drop_dead (rev l)).
  Definition move_term (least : N) (l : list piter) : option (list piter) :=
    match pick least l 0 None 0 with
    | None => None
    | Some k =>
        match nth_error l k with
        | None => None
        | Some i => Some (pop_dead (srt (firstn k l ++ it_next least i :: skipn (S k) l)))
        end
    end.

  (* the loop of next 205-224 on the sorted iterators: the iterators, and the document found; [fuel] bounds its turns *)
  Fixpoint next_loop (fuel : nat) (threshold : Q) (cur : option N) (l : list piter) : option (option N * list piter) :=
    match fuel with
    | 0 => None
    | S fuel =>
        match find_pivot threshold 0%Q l with
        | None => Some (None, l)
        | Some p =>
            match it_row p with
            | None => None
            | Some r =>
                if match cur with Some c => N.leb r c | None => false end
                then match move_term (match cur with Some c => c + 1 | None => 0 end)%N l with
                     | None => None
                     | Some l => next_loop fuel threshold cur l
                     end
                else
                  match l with
                  | [] => None
                  | f :: _ =>
                      match it_row f with
                      | None => None
                      | Some r0 =>
                          if N.eqb r0 r then Some (Some r, l)
                          else match move_term r l with
                               | None => None
                               | Some l => next_loop fuel threshold cur l
                               end
                      end
                  end
            end
        end
    end.

  (* score 185-199 *)
  Fixpoint score_loop (doc : N) (acc : Q) (l : list piter) : option Q :=
    match l with
    | [] => Some acc
    | i :: l =>
        match it_doc i with
        | None => None
        | Some (r, f) => if N.ltb doc r then Some acc else score_loop doc (acc + idf (pl_len (it_list i)) * scorer doc f)%Q l
        end
    end.

  (* BinaryHeap::peek: the least score *)
  Definition peek (l : list (N * Q)) : option Q :=
    match l with [] => None | x :: l => Some (fold_left (fun m y => if Qle_bool m (snd y) then m else snd y) l (snd x)) end.

  (* PositionIterator, wand.rs 320-351 *)
  Record posit := { ps_positions : list Z; ps_query : Z; ps_index : nat }.
  Definition ps_position (p : posit) : option Z := omap (fun x => (x - ps_query p)%Z) (nth_error (ps_positions p) (ps_index p)).
  Definition ps_next (least : Z) (p : posit) : posit :=
    {| ps_positions := ps_positions p; ps_query := ps_query p; ps_index := leading (fun x => Z.ltb x (least + ps_query p)%Z) (ps_positions p) |}.
  (* the inner loop of check_positions 292-307: None when an iterator is at its end *)
  Fixpoint max_loop (l : list posit) (mx : option Z) (same : bool) : option (option Z * bool) :=
    match l with
    | [] => Some (mx, same)
    | p :: l =>
        match ps_position p, mx with
        | Some x, None => max_loop l (Some x) same
        | Some x, Some m => max_loop l (Some (if Z.ltb m x then x else m)) (same && Z.eqb x m)
        | None, _ => None
        end
    end.
  (* the outer loop 289-316; None is a panic or too little fuel *)
  Fixpoint positions_loop (fuel : nat) (l : list posit) : option bool :=
    match fuel with
    | 0 => None
    | S fuel =>
        match max_loop l None true with
        | None => Some false
        | Some (_, true) => Some true
        | Some (None, false) => None
        | Some (Some m, false) => positions_loop fuel (map (ps_next m) l)
        end
    end.
  (* PostingList::positions, index.rs 587-592: binary search for the row *)
  Fixpoint find_row (r : N) (docs : list (N * Q)) (pos : list (list Z)) : option (list Z) :=
    match docs, pos with
    | d :: docs, p :: pos => if N.eqb (fst d) r then Some p else find_row r docs pos
    | _, _ => None
    end.
  Definition position_iter (i : piter) : option posit :=
    match it_row i with
    | None => None
    | Some r => omap (fun p => {| ps_positions := p; ps_query := it_position i; ps_index := 0 |}) (find_row r (pl_docs (it_list i)) (pl_pos (it_list i)))
    end.
  Fixpoint position_iters (l : list piter) : option (list posit) :=
    match l with
    | [] => Some []
    | i :: l => match position_iter i, position_iters l with Some p, Some ps => Some (p :: ps) | _, _ => None end
    end.
  Definition fuel_positions (l : list posit) : nat := S (S (list_sum (map (fun p => length (ps_positions p)) l))).
  (* check_positions 275-317 *)
  Definition check_positions (l : list piter) : option bool :=
    match position_iters l with None => None | Some ps => positions_loop (fuel_positions ps) ps end.

  (* the candidate of one turn of search, 166-172 *)
  Definition offer (limit : nat) (doc : N) (score : Q) (st : wand) : option wand :=
    if length (wd_cands st) <? limit
    then Some {| wd_threshold := wd_threshold st; wd_cur := wd_cur st; wd_posts := wd_posts st; wd_cands := (doc, score) :: wd_cands st |}
    else
      match peek (wd_cands st) with
      | None => None
      | Some m =>
          if Qle_bool score m then Some st
          else let cands := (doc, score) :: popmin (wd_cands st) in
               omap (fun m => {| wd_threshold := scale m; wd_cur := wd_cur st; wd_posts := wd_posts st; wd_cands := cands |}) (peek cands)
      end.

  Definition fuel_of (l : list piter) : nat := S (list_sum (map (fun i => pl_len (it_list i) - it_index i) l)).
  (* the loop of search 149-173 *)
  Fixpoint search_loop (fuel : nat) (phrase : bool) (limit n : nat) (st : wand) : option (list (N * Q)) :=
    match fuel with
    | 0 => None
    | S fuel =>
        let l := srt (wd_posts st) in
        match next_loop (fuel_of l) (wd_threshold st) (wd_cur st) l with
        | None => None
        | Some (None, _) => Some (wd_cands st)
        | Some (Some doc, l) =>
            let st := {| wd_threshold := wd_threshold st; wd_cur := Some doc; wd_posts := l; wd_cands := wd_cands st |} in
            let evaluate := match score_loop doc 0%Q l with
                            | None => None
                            | Some s => match offer limit doc s st with None => None | Some st => search_loop fuel phrase limit n st end
                            end in
            if phrase then
              if negb (length l =? n) then Some (wd_cands st)
              else
                match match last (map Some l) None with None => Some true | Some i => omap (N.eqb doc) (it_row i) end with
                | None => None
                | Some false => search_loop fuel phrase limit n st
                | Some true =>
                    match check_positions l with
                    | None => None
                    | Some false => search_loop fuel phrase limit n st
                    | Some true => evaluate
                    end
                end
            else evaluate
        end
    end.

  (* Wand::search 136-182 up to the order of the result, over Wand::new; the query tokens of bm25_search, index.rs 152-171, have
     their positions in the query *)
  Fixpoint new_iters (position : Z) (lists : list plist) : list piter :=
    match lists with [] => [] | p :: lists => it_new position p :: new_iters (position + 1) lists end.
  Definition wand_search (phrase : bool) (limit : nat) (lists : list plist) : option (list (N * Q)) :=
    if limit =? 0 then Some []
    else
      let st := wand_new (new_iters 0 lists) in
      search_loop (fuel_of (wd_posts st)) phrase limit (length (wd_posts st)) st.
End Wand.
