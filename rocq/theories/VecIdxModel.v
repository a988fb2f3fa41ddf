(* Building, merging and remapping a vector index: rust/lance-index/src/vector/v3/shuffler.rs, ivf.rs, ivf/transform.rs,
   ivf/storage.rs, storage.rs, pq/storage.rs and rust/lance/src/index/vector/builder.rs.
   Simplifications: vectors, the nearest centroid, normalising, residuals and quantizing are given functions; a code is a list of
   bytes; vectors are not lists of vectors (Flatten does nothing); row ids are numbers; a file gives the rows that were written
   to it (C130 and others); the graph of an HNSW index is left out; futures finish in order; sums do not overflow. *)
From Coq Require Import List Arith Bool Lia.
From Verif Require Import Lib PageModel.
Import ListNotations.
Local Open Scope nat_scope.

(* ---- the layout of codes ---- *)
(* transpose, pq/storage.rs 329-351: what is at i * m + j is put at j * n + i *)
Definition transpose (flat : list nat) (n m : nat) : list nat := flat_map (fun j => map (fun i => nth (i * m + j) flat 0) (seq 0 n)) (seq 0 m).
(* FixedSizeListArray::try_new_from_values *)
Definition chunks (m : nat) (flat : list nat) : list (list nat) := map (fun i => slice (i * m) (i * m + m) flat) (seq 0 (length flat / m)).
(* step_by *)
Fixpoint every (fuel n : nat) (l : list nat) : list nat := match fuel, l with S f, x :: _ => x :: every f n (skipn n l) | _, _ => [] end.
(* get_pq_code, pq/storage.rs 584-598 *)
Definition pq_code (m : nat) (flat : list nat) (i : nat) : list nat := every (length flat) (length flat / m) (skipn i flat).

(* a quantized storage: row ids, codes in rows as they are in the file, and whether there is a column of partition ids between
   the two *)
Record storage := { s_ids : list nat; s_codes : list (list nat); s_extra : bool }.
(* what a query sees of a storage: each row id with its code *)
Definition entries (pq : bool) (m : nat) (s : storage) : list (nat * list nat) :=
  map (fun i => (nth i (s_ids s) 0, if pq then pq_code m (concat (s_codes s)) i else nth i (s_codes s) [])) (seq 0 (length (s_ids s))).

(* ---- the index in its file ---- *)
(* IvfModel, ivf/storage.rs 24-36, of the storage *)
Record vindex := { x_ids : list nat; x_codes : list (list nat); x_extra : bool; x_offsets : list nat; x_lengths : list nat }.
(* add_partition 108-114 *)
Definition add_partition (offs lens : list nat) (n : nat) : list nat * list nat := (offs ++ [last offs 0 + last lens 0], lens ++ [n]).
Fixpoint add_partitions (offs lens : list nat) (l : list storage) : list nat * list nat :=
  match l with [] => (offs, lens) | s :: t => let '(o, n) := add_partition offs lens (length (s_ids s)) in add_partitions o n t end.
(* merge_partitions, builder.rs 587-769; None: storage_writer.unwrap() when no partition has rows *)
Definition merge_partitions (parts : list storage) : option vindex :=
  match filter (fun s => negb (length (s_ids s) =? 0)) parts with
  | [] => None
  | (s0 :: _) as full => let '(o, n) := add_partitions [] [] parts in Some {| x_ids := flat_map s_ids full; x_codes := flat_map s_codes full; x_extra := s_extra s0; x_offsets := o; x_lengths := n |}
  end.
(* load_partition, storage.rs 259-289, with row_range, ivf/storage.rs 123-127 *)
Definition load_partition (x : vindex) (p : nat) : storage :=
  let a := nth p (x_offsets x) 0 in let b := a + nth p (x_lengths x) 0 in {| s_ids := slice a b (x_ids x); s_codes := slice a b (x_codes x); s_extra := x_extra x |}.

Section VecIdx.
  Context {V : Type}.
  (* NormalizeTransformer when distances are cosines, the nearest centroid (None: no distance is a number), ResidualTransform when
     the quantizer uses residuals, and the quantizer *)
  Variable prep : V -> V.
  Variable nearest : V -> option nat.
  Variable resid : nat -> V -> V.
  Variable quant : V -> list nat.
  Variable nparts : nat.
  (* product quantization, which transposes codes, and the bytes of a code *)
  Variable pq : bool.
  Variable m : nat.

  Definition row : Type := nat * V.
  (* a row with its partition, which may be null; value of a null is zero *)
  Definition prow : Type := nat * V * option nat.
  Definition value (p : option nat) : nat := match p with Some x => x | None => 0 end.
  Definition part_of (r : prow) : nat := value (snd r).
  (* IvfTransformer::transform, ivf.rs 263-272, with the transforms of new_flat 106-140, with_pq 143-198 and with_sq 200-237;
     PartitionTransformer 64-94 and PartitionFilter 114-150 of ivf/transform.rs; ResidualTransform, residual.rs 146-185 *)
  Definition transform (b : list row) : list prow :=
    map (fun r => (fst (fst r), resid (part_of r) (snd (fst r)), snd r))
      (filter (fun r => part_of r <? nparts) (map (fun r => (fst r, snd r, nearest (snd r))) (map (fun r => (fst r, prep (snd r))) b))).

  (* ---- IvfShuffler::shuffle, v3/shuffler.rs 92-220 ---- *)
  (* sort_to_indices and take 116-117 *)
  Variable sort : list prow -> list prow.
  (* the loop 127-139 *)
  Fixpoint runs (l : list prow) : list (nat * list prow) :=
    match l with
    | [] => []
    | x :: t => match runs t with (p, r) :: rest => if part_of x =? p then (p, x :: r) :: rest else (part_of x, [x]) :: (p, r) :: rest | [] => [(part_of x, [x])] end
    end.
  (* the batches for each partition; None: an index out of bounds *)
  Definition split (b : list prow) : option (nat -> list (list prow)) :=
    let rs := runs (sort b) in if forallb (fun x => fst x <? nparts) rs then Some (fun p => map snd (filter (fun x => fst x =? p) rs)) else None.
  Record shuf := { h_bufs : nat -> list (list prow); h_files : nat -> list prow; h_sizes : nat -> nat; h_counter : nat; h_first : bool }.
  Definition shuf0 : shuf := {| h_bufs := fun _ => []; h_files := fun _ => []; h_sizes := fun _ => 0; h_counter := 0; h_first := true |}.
  Definition flush_all (s : shuf) : shuf :=
    {| h_bufs := fun _ => []; h_files := fun p => h_files s p ++ concat (h_bufs s p); h_sizes := fun p => h_sizes s p + length (concat (h_bufs s p)); h_counter := h_counter s; h_first := h_first s |}.
  Variable buffer_size : nat.
  (* 153-202; None: "there should be at least one batch", the remainder by zero *)
  Definition shuf_step (s : shuf) (b : list prow) : option shuf :=
    obind (split b) (fun parts =>
    let bufs := fun p => h_bufs s p ++ parts p in
    if h_first s && forallb (fun p => match bufs p with [] => true | _ => false end) (seq 0 nparts) then None else
    if buffer_size =? 0 then None else
    let s' := {| h_bufs := bufs; h_files := h_files s; h_sizes := h_sizes s; h_counter := S (h_counter s); h_first := false |} in
    Some (if S (h_counter s) mod buffer_size =? 0 then flush_all s' else s')).
  Fixpoint shuf_loop (s : shuf) (l : list (list prow)) : option shuf := match l with [] => Some s | b :: t => obind (shuf_step s b) (fun s' => shuf_loop s' t) end.
  (* IvfShufflerReader 222-305 and SinglePartitionReader 307-338 *)
  Inductive reader := RSingle (l : list (list prow)) | RFiles (files : nat -> list prow) (sizes : nat -> nat).
  (* None: there are no writers for the last flush *)
  Definition shuffle (l : list (list prow)) : option reader :=
    if nparts =? 1 then Some (RSingle l) else
    obind (shuf_loop shuf0 l) (fun s => if h_first s && (0 <? nparts) then None else let s' := flush_all s in Some (RFiles (h_files s') (h_sizes s'))).
  Definition partition_size (r : reader) (p : nat) : nat := match r with RSingle _ => 1 | RFiles _ sizes => sizes p end.
  Definition read_partition (r : reader) (p : nat) : list row := match r with RSingle l => map fst (concat l) | RFiles files _ => map fst (files p) end.
  Definition single (r : reader) : bool := match r with RSingle _ => true | _ => false end.

  (* ---- IvfIndexBuilder, builder.rs ---- *)
  (* shuffle_data 377-444; an empty stream gives empty partitions *)
  Definition shuffle_data (data : list (list row)) : option reader :=
    match data with [] => Some (RFiles (fun _ => []) (fun _ => 0)) | _ => shuffle (map transform data) end.
  (* the vectors of the rows of the dataset; None for rows that were deleted *)
  Variable lookup : nat -> option V.
  (* take_vectors 774-794: None when a row is missing, as there are then more row ids than vectors *)
  Fixpoint take_vectors (ids : list nat) : option (list row) :=
    match ids with [] => Some [] | i :: t => obind (lookup i) (fun v => omap (cons (i, v)) (take_vectors t)) end.
  Fixpoint take_existing (existing : list vindex) (p : nat) : option (list row) :=
    match existing with [] => Some [] | e :: t => obind (take_vectors (s_ids (load_partition e p))) (fun a => omap (fun b => a ++ b) (take_existing t p)) end.
  (* StorageBuilder::build, storage.rs 163-186, and ProductQuantizationStorage::new, pq/storage.rs 145-213, with codes that are
     not transposed yet *)
  Definition build_storage (rows : list row) (extra : bool) : storage :=
    let codes := map (fun r => quant (snd r)) rows in
    {| s_ids := map fst rows; s_codes := if pq then chunks m (transpose (concat codes) (length rows) m) else codes; s_extra := extra |}.
  (* take_partition_batches 550-585 and build_partitions 446-517 for a partition; the schema is that of the first batch *)
  Definition build_partition (existing : list vindex) (r : reader) (p : nat) : option storage :=
    omap (fun old =>
      let new := if 0 <? partition_size r p then read_partition r p else [] in
      build_storage (old ++ new) (match old with [] => single r | _ => false end)) (take_existing existing p).
  Fixpoint collect {X} (l : list (option X)) : option (list X) := match l with [] => Some [] | x :: t => obind x (fun y => omap (cons y) (collect t)) end.
  Definition build_all (existing : list vindex) (r : reader) : option vindex :=
    obind (collect (map (build_partition existing r) (seq 0 nparts))) merge_partitions.
  (* build 183-207 for a new index: the batches of the column without nulls *)
  Definition build (dataset : list (list row)) : option vindex := obind (shuffle_data dataset) (build_all []).
  (* optimize_vector_indices_v2, ivf.rs 333-460: shuffle_data does nothing when there are no new fragments, and then build has no
     shuffle_reader *)
  Definition optimize (dataset : list (list row)) (existing : list vindex) (unindexed : option (list (list row))) : option vindex :=
    match unindexed with Some data => obind (shuffle_data data) (build_all existing) | None => obind (shuffle_data dataset) (build_all existing) end.

  (* ---- remap ---- *)
  (* VectorStore::remap, storage.rs 78-114: None when there are three columns *)
  Variable mapping : nat -> option (option nat).
  Definition moved (i : nat) : option nat := match mapping i with Some (Some j) => Some j | Some None => None | None => Some i end.
  Fixpoint remap_rows (ids : list nat) (codes : list (list nat)) : list nat * list (list nat) :=
    match ids, codes with
    | i :: ids', c :: codes' => let '(a, b) := remap_rows ids' codes' in match moved i with Some j => (j :: a, c :: b) | None => (a, b) end
    | _, _ => ([], [])
    end.
  Definition remap_storage (s : storage) : option storage := if s_extra s then None else let '(a, b) := remap_rows (s_ids s) (s_codes s) in Some {| s_ids := a; s_codes := b; s_extra := false |}.
  (* IvfIndexBuilder::remap, builder.rs 210-262 *)
  Definition remap (x : vindex) : option vindex := obind (collect (map (fun p => remap_storage (load_partition x p)) (seq 0 nparts))) merge_partitions.
End VecIdx.
