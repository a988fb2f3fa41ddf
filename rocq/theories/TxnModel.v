(* Transactions: rust/lance/src/dataset/transaction.rs, with the manifest
   operations it uses (rust/lance-table/src/format/manifest.rs,
   rust/lance-table/src/feature_flags.rs).

   Simplifications common to the file: strings (paths, names, uuids, config keys
   and values) are opaque numbers, only compared for equality; a HashMap is an
   association list sorted by key; a schema is its pre-order list of fields; a
   RoaringBitmap is a list of u32; inline row id metadata is the list of ids it
   encodes (the encoding is lossless, C09); writer version, timestamps, blob
   dataset version, fragment offsets (recomputed, C28), storage format and the
   index section position are not carried. *)
From Coq Require Import List Arith NArith ZArith Bool.
From Verif Require Import Lib AMap TreeMapModel SerdeModel.
Import ListNotations.
Local Open Scope N_scope.

(* lance-table/src/format/fragment.rs: DataFile, DeletionFile, Fragment *)
Record dfile := { df_path : N; df_fields : list Z; df_cols : list Z; df_major : N; df_minor : N }.
Record delfile := { dl_read_version : N; dl_id : N; dl_bitmap : bool; dl_count : option N }.
Record fragment := { f_id : N; f_files : list dfile; f_del : option delfile; f_rowids : option (list N); f_rows : option N }.

(* lance-table/src/format/index.rs: Index *)
Record index := { ix_uuid : N; ix_name : N; ix_fields : list Z; ix_version : N; ix_bitmap : option (list N) }.

(* lance-core datatypes: Field (id, metadata), Schema (fields_pre_order, metadata) *)
Record field := { fd_id : Z; fd_name : N; fd_meta : amap N }.
Record schema := { sc_fields : list field; sc_meta : amap N }.

(* lance-table/src/format/manifest.rs:26-92 *)
Record manifest := { m_version : N; m_schema : schema; m_fragments : list fragment; m_rflags : N; m_wflags : N;
                     m_max : N; m_next_row : N; m_config : amap N; m_tag : option N; m_txn : option N }.

Record rewrite_group := { rg_old : list fragment; rg_new : list fragment }.
Record rewritten_index := { rw_old : N; rw_new : N }.

(* transaction.rs:107-200 *)
Inductive op :=
| Append (fragments : list fragment)
| Delete (updated : list fragment) (deleted : list N)
| Overwrite (fragments : list fragment) (sch : schema) (upsert : option (amap N))
| CreateIndex (new_indices removed_indices : list index)
| Rewrite (groups : list rewrite_group) (rewritten : list rewritten_index)
| DataReplacement (replacements : list (N * dfile))
| Merge (fragments : list fragment) (sch : schema)
| Restore (version : N)
| ReserveFragments (num : N)
| Update (removed : list N) (updated new_fragments : list fragment)
| Project (sch : schema)
| UpdateConfig (upsert : option (amap N)) (delete : option (list N)) (smeta : option (amap N)) (fmeta : option (amap (amap N))).

(* transaction.rs:82-94; blobs_op not modelled *)
Record txn := { t_read : N; t_uuid : N; t_op : op; t_tag : option N }.

(* transaction.rs:224-262 *)
Definition modified_fragment_ids (o : op) : list N :=
  match o with
  | Append _ | Overwrite _ _ _ | CreateIndex _ _ | ReserveFragments _ | Project _ | UpdateConfig _ _ _ _ | Restore _ => []
  | Delete updated deleted => map f_id updated ++ deleted
  | Rewrite groups _ => flat_map (fun g => map f_id (rg_old g)) groups
  | Merge fragments _ => map f_id fragments
  | Update removed updated _ => map f_id updated ++ removed
  | DataReplacement r => map fst r
  end.
(* transaction.rs:265-283 *)
Definition upsert_keys (o : op) : list N :=
  match o with
  | Overwrite _ _ (Some m) => keys m
  | UpdateConfig (Some m) _ _ _ => keys m
  | _ => []
  end.
(* transaction.rs:286-294 *)
Definition delete_keys (o : op) : list N := match o with UpdateConfig _ (Some d) _ _ => d | _ => [] end.
(* transaction.rs:297-301 *)
Definition modifies_same_ids (a b : op) : bool :=
  existsb (fun id => memN id (modified_fragment_ids a)) (modified_fragment_ids b).
Definition is_some {A} (o : option A) : bool := match o with Some _ => true | None => false end.
(* transaction.rs:303-333 *)
Definition modifies_same_metadata (a b : op) : bool :=
  match a, b with
  | UpdateConfig _ _ s1 f1, UpdateConfig _ _ s2 f2 =>
      (is_some s1 && is_some s2) ||
      match f1, f2 with Some m1, Some m2 => existsb (fun k => has k m2) (keys m1) | _, _ => false end
  | _, _ => false
  end.
(* transaction.rs:336-349 *)
Definition upsert_key_conflict (a b : op) : bool :=
  existsb (fun x => memN x (upsert_keys b) || memN x (delete_keys b)) (upsert_keys a) ||
  existsb (fun x => memN x (upsert_keys a) || memN x (delete_keys a)) (upsert_keys b).

(* transaction.rs:388-530 *)
Definition conflicts_with (a b : op) : bool :=
  match a with
  | Append _ =>
      match b with
      | Append _ | Rewrite _ _ | CreateIndex _ _ | Delete _ _ | Update _ _ _ | ReserveFragments _ | Project _
      | UpdateConfig _ _ _ _ | DataReplacement _ => false
      | _ => true
      end
  | Rewrite _ _ =>
      match b with
      | Append _ | ReserveFragments _ | Project _ | UpdateConfig _ _ _ _ => false
      | Delete _ _ | Rewrite _ _ | Update _ _ _ => modifies_same_ids a b
      | _ => true
      end
  | Restore _ => false
  | ReserveFragments _ => match b with Overwrite _ _ _ | Restore _ => true | _ => false end
  | CreateIndex _ _ =>
      match b with
      | Append _ | CreateIndex _ _ | Delete _ _ | Update _ _ _ | Merge _ _ | ReserveFragments _ | UpdateConfig _ _ _ _ => false
      | _ => true
      end
  | Delete _ _ | Update _ _ _ =>
      match b with
      | CreateIndex _ _ | ReserveFragments _ | Project _ | Append _ | UpdateConfig _ _ _ _ => false
      | Delete _ _ | Rewrite _ _ | Update _ _ _ => modifies_same_ids a b
      | _ => true
      end
  | Overwrite _ _ _ =>
      match b with
      | Overwrite _ _ _ | UpdateConfig _ _ _ _ => upsert_key_conflict a b
      | _ => false
      end
  | UpdateConfig _ _ sm fm =>
      match b with
      | Overwrite _ _ _ => if is_some sm || is_some fm then true else upsert_key_conflict a b
      | UpdateConfig _ _ _ _ => upsert_key_conflict a b || modifies_same_metadata a b
      | _ => false
      end
  | Merge _ _ => match b with CreateIndex _ _ | ReserveFragments _ | UpdateConfig _ _ _ _ => false | _ => true end
  | Project _ => match b with CreateIndex _ _ | Overwrite _ _ _ | UpdateConfig _ _ _ _ => false | _ => true end
  | DataReplacement _ =>
      match b with
      | Append _ | Delete _ _ | Update _ _ _ | Merge _ _ | UpdateConfig _ _ _ _ => false
      | _ => true
      end
  end.

(* result of building a manifest: Ok, an error, or a panic *)
Inductive bres (A : Type) := BOk (a : A) | BErr | BPanic.
Arguments BOk {A}. Arguments BErr {A}. Arguments BPanic {A}.
Definition bbind {A B} (r : bres A) (k : A -> bres B) : bres B :=
  match r with BOk a => k a | BErr => BErr | BPanic => BPanic end.

Definition set_id (f : fragment) (i : N) : fragment :=
  {| f_id := i; f_files := f_files f; f_del := f_del f; f_rowids := f_rowids f; f_rows := f_rows f |}.
Definition set_rowids (f : fragment) (r : option (list N)) : fragment :=
  {| f_id := f_id f; f_files := f_files f; f_del := f_del f; f_rowids := r; f_rows := f_rows f |}.
Definition set_files (f : fragment) (l : list dfile) : fragment :=
  {| f_id := f_id f; f_files := l; f_del := f_del f; f_rowids := f_rowids f; f_rows := f_rows f |}.

(* transaction.rs:532-546: only fragments whose id is still 0 get a new id *)
Fixpoint fragments_with_ids (l : list fragment) (next : N) : list fragment * N :=
  match l with
  | [] => ([], next)
  | f :: t => if f_id f =? 0
              then let '(r, n) := fragments_with_ids t (next + 1) in (set_id f next :: r, n)
              else let '(r, n) := fragments_with_ids t next in (f :: r, n)
  end.

(* transaction.rs:1148-1162: ids next..next+physical_rows, in order *)
Fixpoint assign_row_ids (next : N) (l : list fragment) : bres (list fragment * N) :=
  match l with
  | [] => BOk ([], next)
  | f :: t => match f_rows f with
              | None => BErr
              | Some n => bbind (assign_row_ids (next + n) t) (fun '(r, n') =>
                            BOk (set_rowids f (Some (nrange next (N.to_nat n))) :: r, n'))
              end
  end.

(* transaction.rs:1009-1031 *)
Definition field_ids (s : schema) : list Z := map fd_id (sc_fields s).
Definition memZ (z : Z) (l : list Z) : bool := existsb (Z.eqb z) l.
Definition retain_relevant_indices (ixs : list index) (s : schema) (fs : list fragment) : list index :=
  filter (fun ix => match ix_bitmap ix with Some b => existsb (fun i => memN i (map f_id fs)) b | None => true end)
         (filter (fun ix => forallb (fun z => memZ z (field_ids s)) (ix_fields ix)) ixs).

(* transaction.rs:1033-1063; `frag.id as u32` truncates *)
Definition u32 (n : N) : N := n mod two32.
Fixpoint recalc_loop (old new : list N) (groups : list rewrite_group) : bres (list N) :=
  match groups with
  | [] => BOk new
  | g :: t =>
      let ids := map (fun f => u32 (f_id f)) (rg_old g) in
      if existsb (fun i => memN i old) ids then
        if forallb (fun i => memN i old) ids
        then recalc_loop old (s_union (s_diff new ids) (s_of_list (map (fun f => u32 (f_id f)) (rg_new g)))) t
        else BErr
      else recalc_loop old new t
  end.
Definition recalculate_fragment_bitmap (old : list N) (groups : list rewrite_group) : bres (list N) := recalc_loop old old groups.

(* transaction.rs:1065-1105 *)
Definition set_bitmap (ix : index) (b : option (list N)) : index :=
  {| ix_uuid := ix_uuid ix; ix_name := ix_name ix; ix_fields := ix_fields ix; ix_version := ix_version ix; ix_bitmap := b |}.
Definition set_uuid (ix : index) (u : N) : index :=
  {| ix_uuid := u; ix_name := ix_name ix; ix_fields := ix_fields ix; ix_version := ix_version ix; ix_bitmap := ix_bitmap ix |}.
(* iter_mut().find(uuid == old): modify the first match *)
Fixpoint rewrite_first (ixs : list index) (r : rewritten_index) (groups : list rewrite_group) : bres (list index) :=
  match ixs with
  | [] => BErr
  | ix :: t => if ix_uuid ix =? rw_old r
               then match ix_bitmap ix with
                    | None => BErr
                    | Some b => bbind (recalculate_fragment_bitmap b groups) (fun b' => BOk (set_uuid (set_bitmap ix (Some b')) (rw_new r) :: t))
                    end
               else bbind (rewrite_first t r groups) (fun t' => BOk (ix :: t'))
  end.
Fixpoint handle_rewrite_indices (seen : list N) (ixs : list index) (rw : list rewritten_index) (groups : list rewrite_group) : bres (list index) :=
  match rw with
  | [] => BOk ixs
  | r :: t => if memN (rw_old r) seen then BErr
              else bbind (rewrite_first ixs r groups) (fun ixs' => handle_rewrite_indices (rw_old r :: seen) ixs' t groups)
  end.
(* transaction.rs:742-751: every index's bitmap is recalculated *)
Fixpoint recalc_all (ixs : list index) (groups : list rewrite_group) : bres (list index) :=
  match ixs with
  | [] => BOk []
  | ix :: t => bbind (match ix_bitmap ix with
                      | Some b => bbind (recalculate_fragment_bitmap b groups) (fun b' => BOk (set_bitmap ix (Some b')))
                      | None => BOk ix
                      end) (fun ix' => bbind (recalc_all t groups) (fun t' => BOk (ix' :: t')))
  end.

(* transaction.rs:1107-1146 *)
Fixpoint position {A} (p : A -> bool) (l : list A) : option nat :=
  match l with [] => None | x :: t => if p x then Some 0%nat else omap S (position p t) end.
(* 1119-1129: compare old_fragments[i..] with final_fragments[start+i..]; an index
   past the end of final_fragments panics (None) *)
Fixpoint contiguous (fs old : list fragment) : option bool :=
  match old with
  | [] => Some true
  | o :: old' => match fs with
                 | [] => None
                 | f :: fs' => if f_id f =? f_id o then contiguous fs' old' else Some false
                 end
  end.
Fixpoint handle_rewrite_fragments (fs : list fragment) (groups : list rewrite_group) (next : N) : bres (list fragment * N) :=
  match groups with
  | [] => BOk (fs, next)
  | g :: t =>
      match rg_old g with
      | [] => BPanic
      | o0 :: olds =>
          match position (fun f => f_id f =? f_id o0) fs with
          | None => BErr
          | Some start =>
              match contiguous (skipn (S start) fs) olds with
              | None => BPanic
              | Some c =>
                  let '(new, next') := fragments_with_ids (rg_new g) next in
                  let fs' := if c then firstn start fs ++ new ++ skipn (start + length (rg_old g)) fs
                             else filter (fun f => negb (memN (f_id f) (map f_id (rg_old g)))) fs ++ new in
                  handle_rewrite_fragments fs' t next'
              end
          end
      end
  end.

(* manifest.rs:241-249 *)
Definition maxN (l : list N) : N := fold_right N.max 0 l.
Definition max_fragment_id (m : manifest) : option N :=
  if m_max m =? 0 then match m_fragments m with [] => None | fs => Some (maxN (map f_id fs)) end
  else Some (m_max m).
(* manifest.rs:222-235; try_into u32 unwrap *)
Definition update_max_fragment_id (mx : N) (fs : list fragment) : bres N :=
  let m := maxN (map f_id fs) in
  if two32 <=? m then BPanic else BOk (if mx <? m then m else mx).

(* Vec::sort_by_key: stable *)
Fixpoint insert_frag (f : fragment) (l : list fragment) : list fragment :=
  match l with [] => [f] | g :: t => if f_id f <=? f_id g then f :: l else g :: insert_frag f t end.
Definition sort_frags (l : list fragment) : list fragment := fold_right insert_frag [] l.

(* feature_flags.rs:13-23 *)
Definition FLAG_DELETION_FILES : N := 1.
Definition FLAG_MOVE_STABLE_ROW_IDS : N := 2.
Definition FLAG_TABLE_CONFIG : N := 8.
Definition FLAG_UNKNOWN : N := 16.
(* feature_flags.rs:26-65; the flags as (reader, writer) *)
Definition feature_flags (fs : list fragment) (config : amap N) (enable_stable : bool) : bres (N * N) :=
  let del := if existsb (fun f => is_some (f_del f)) fs then FLAG_DELETION_FILES else 0 in
  let cfg := match config with [] => 0 | _ => FLAG_TABLE_CONFIG end in
  if existsb (fun f => is_some (f_rowids f)) fs || enable_stable
  then if forallb (fun f => is_some (f_rowids f)) fs
       then BOk (N.lor del FLAG_MOVE_STABLE_ROW_IDS, N.lor (N.lor del FLAG_MOVE_STABLE_ROW_IDS) cfg)
       else BErr
  else BOk (del, N.lor del cfg).
(* feature_flags.rs:67-73 *)
Definition can_read_dataset (r : N) : bool := r <? FLAG_UNKNOWN.
Definition can_write_dataset (w : N) : bool := w <? FLAG_UNKNOWN.
(* manifest.rs: uses_move_stable_row_ids *)
Definition uses_stable (m : manifest) : bool := negb (N.land (m_rflags m) FLAG_MOVE_STABLE_ROW_IDS =? 0).

(* ManifestWriteConfig (rust/lance/src/dataset.rs): the two fields that matter here *)
Record wconfig := { wc_auto_flags : bool; wc_stable : bool }.

(* transaction.rs:639-656; outer result: NotSupported error *)
Definition start_next_row (cur : option manifest) (c : wconfig) : bres (option N) :=
  match cur with
  | Some m => if uses_stable m then BOk (Some (m_next_row m)) else if wc_stable c then BErr else BOk None
  | None => BOk (if wc_stable c then Some 0 else None)
  end.

(* assign row ids to new fragments when the dataset uses them *)
Definition with_row_ids (next : option N) (l : list fragment) : bres (list fragment * option N) :=
  match next with
  | None => BOk (l, None)
  | Some n => bbind (assign_row_ids n l) (fun '(l', n') => BOk (l', Some n'))
  end.

(* transaction.rs:804-905 DataReplacement *)
Fixpoint list_eqb {A} (eqb : A -> A -> bool) (a b : list A) : bool :=
  match a, b with
  | [], [] => true
  | x :: a', y :: b' => eqb x y && list_eqb eqb a' b'
  | _, _ => false
  end.
Definition dfile_eqb (a b : dfile) : bool :=
  (df_path a =? df_path b) && list_eqb Z.eqb (df_fields a) (df_fields b) && list_eqb Z.eqb (df_cols a) (df_cols b) &&
  (df_major a =? df_major b) && (df_minor a =? df_minor b).
Definition set_path (d : dfile) (p : N) : dfile :=
  {| df_path := p; df_fields := df_fields d; df_cols := df_cols d; df_major := df_major d; df_minor := df_minor d |}.
(* 847-856: matching files get the new path (column_indices are not updated) *)
Definition replace_files (fs : list dfile) (nf : dfile) : list dfile :=
  map (fun d => if list_eqb Z.eqb (df_fields d) (df_fields nf) && (df_major d =? df_major nf) && (df_minor d =? df_minor nf)
                then set_path d (df_path nf) else d) fs.
(* 843-878 *)
Definition replace_one (f : fragment) (nf : dfile) : bres fragment :=
  let files := replace_files (f_files f) nf in
  let covered := flat_map df_fields files in
  let files := if existsb (fun z => memZ z covered) (df_fields nf) then files else files ++ [nf] in
  if list_eqb dfile_eqb files (f_files f) then BErr else BOk (set_files f files).
Definition find_fragment (fs : list fragment) (id : N) : option fragment := find (fun f => f_id f =? id) fs.
Fixpoint replace_all (fs : list fragment) (r : list (N * dfile)) : bres (list fragment) :=
  match r with
  | [] => BOk []
  | (id, nf) :: t => match find_fragment fs id with
                     | None => BErr
                     | Some f => bbind (replace_one f nf) (fun f' => bbind (replace_all fs t) (fun l => BOk (f' :: l)))
                     end
  end.
(* 813-838: all new files have the same fields *)
Definition same_fields (r : list (N * dfile)) : bool :=
  match r with [] => true | (_, d) :: t => forallb (fun x => list_eqb Z.eqb (df_fields (snd x)) (df_fields d)) t end.

(* transaction.rs:669-911, before sorting: fragments, indices, next row id *)
Definition update_frag (updated : list fragment) (f : fragment) : fragment :=
  (* Delete (694-700): later entries win; *)
  fold_left (fun acc u => if f_id u =? f_id acc then u else acc) updated f.
Definition apply_op (o : op) (cur : option manifest) (sch : schema) (ixs : list index) (next_id : N) (next_row : option N)
  : bres (list fragment * list index * option N) :=
  let existing (k : list fragment -> bres (list fragment * list index * option N)) :=
    match cur with Some m => k (m_fragments m) | None => BErr end in
  match o with
  | Append l => existing (fun fs =>
      bbind (with_row_ids next_row (fst (fragments_with_ids l next_id))) (fun '(new, nr) => BOk (fs ++ new, ixs, nr)))
  | Delete updated deleted => existing (fun fs =>
      let fs' := map (update_frag updated) (filter (fun f => negb (memN (f_id f) deleted)) fs) in
      BOk (fs', retain_relevant_indices ixs sch fs', next_row))
  | Update removed updated news => existing (fun fs =>
      let kept := map (fun f => match find (fun u => f_id u =? f_id f) updated with Some u => u | None => f end)
                      (filter (fun f => negb (memN (f_id f) removed)) fs) in
      bbind (with_row_ids next_row (fst (fragments_with_ids news next_id))) (fun '(new, nr) =>
        BOk (kept ++ new, retain_relevant_indices ixs sch (kept ++ new), nr)))
  | Overwrite l _ _ =>
      bbind (with_row_ids next_row (fst (fragments_with_ids l next_id))) (fun '(new, nr) => BOk (new, [], nr))
  | Rewrite groups rw => existing (fun fs =>
      bbind (handle_rewrite_fragments fs groups next_id) (fun '(fs', _) =>
      bbind (match next_row with
             | Some _ => recalc_all ixs groups
             | None => handle_rewrite_indices [] ixs rw groups
             end) (fun ixs' => BOk (fs', ixs', next_row))))
  | CreateIndex news removed => existing (fun fs =>
      BOk (fs, filter (fun e => negb (existsb (fun n => ix_name n =? ix_name e) news) &&
                                negb (existsb (fun r => ix_uuid r =? ix_uuid e) removed)) ixs ++ news, next_row))
  | ReserveFragments _ | UpdateConfig _ _ _ _ => existing (fun fs => BOk (fs, ixs, next_row))
  | Merge l _ => BOk (l, retain_relevant_indices ixs sch l, next_row)
  | Project _ => existing (fun fs =>
      let fs' := map (fun f => set_files f (filter (fun d => existsb (fun z => memZ z (field_ids sch)) (df_fields d)) (f_files f))) fs in
      BOk (fs', retain_relevant_indices ixs sch fs', next_row))
  | Restore _ => BPanic (* unreachable!() *)
  | DataReplacement r =>
      if negb (same_fields r) then BErr else existing (fun fs =>
      bbind (replace_all fs r) (fun new => BOk (new ++ filter (fun f => negb (memN (f_id f) (map fst r))) fs, ixs, next_row)))
  end.

(* HashMap::extend (update_config, manifest.rs:197) and retain (202) *)
Definition config_extend (c : amap N) (m : amap N) : amap N := fold_left (fun acc kv => put (fst kv) (snd kv) acc) m c.
Definition config_delete (c : amap N) (ks : list N) : amap N := filter (fun p => negb (memN (fst p) ks)) c.
(* manifest.rs: update_field_metadata: the field with that id, if any *)
Definition update_field_meta (l : list field) (id : N) (meta : amap N) : list field :=
  map (fun fd => if (fd_id fd =? Z.of_N id)%Z then {| fd_id := fd_id fd; fd_name := fd_name fd; fd_meta := meta |} else fd) l.
(* transaction.rs:959-994 *)
Definition apply_config (o : op) (c : amap N) (s : schema) : amap N * schema :=
  match o with
  | Overwrite _ _ (Some m) => (config_extend c m, s)
  | UpdateConfig up de sm fm =>
      let c := match de with Some d => config_delete c d | None => c end in
      let c := match up with Some m => config_extend c m | None => c end in
      let s := match sm with Some m => {| sc_fields := sc_fields s; sc_meta := m |} | None => s end in
      let s := match fm with
               | Some l => {| sc_fields := fold_left (fun acc kv => update_field_meta acc (fst kv) (snd kv)) l (sc_fields s); sc_meta := sc_meta s |}
               | None => s end in
      (c, s)
  | _ => (c, s)
  end.

(* transaction.rs:592-1007.  Overflow of the u32 max_fragment_id in
   ReserveFragments panics (as in debug builds). *)
Definition build_manifest (t : txn) (cur : option manifest) (ixs : list index) (txn_file : N) (c : wconfig) : bres (manifest * list index) :=
  if match cur with Some m => wc_stable c && negb (uses_stable m) | None => false end then BErr else
  bbind (match t_op t with
         | Overwrite _ s _ | Merge _ s | Project s => BOk s
         | _ => match cur with Some m => BOk (m_schema m) | None => BErr end
         end) (fun sch =>
  let next_id := match t_op t with
                 | Overwrite _ _ _ => 0
                 | _ => match cur with
                        | Some m => match max_fragment_id m with Some i => i + 1 | None => 0 end
                        | None => 0
                        end
                 end in
  bbind (start_next_row cur c) (fun next_row =>
  bbind (apply_op (t_op t) cur sch ixs next_id next_row) (fun '(fs, ixs', next_row') =>
  let fs := sort_frags fs in
  let config0 := match cur with Some m => m_config m | None => [] end in
  bbind (if wc_auto_flags c then feature_flags fs config0 (wc_stable c) else BOk (0, 0)) (fun '(rf, wf) =>
  bbind (update_max_fragment_id (match cur with Some m => m_max m | None => 0 end) fs) (fun mx =>
  let '(config, sch') := apply_config (t_op t) config0 sch in
  bbind (match t_op t with
         | ReserveFragments n => if two32 <=? mx + n then BPanic else BOk (mx + n)
         | _ => BOk mx
         end) (fun mx' =>
  BOk ({| m_version := match cur with Some m => m_version m + 1 | None => 1 end;
          m_schema := sch'; m_fragments := fs; m_rflags := rf; m_wflags := wf; m_max := mx';
          m_next_row := match next_row' with Some n => n | None => match cur with Some m => m_next_row m | None => 0 end end;
          m_config := config; m_tag := t_tag t; m_txn := Some txn_file |}, ixs'))))))).

(* ---- a table's history ----
   One entry per committed version 1, 2, ...: the transaction, the write
   configuration, and the manifest with its indices.  Which transactions may be
   appended is what rust/lance/src/io/commit.rs:698-878 enforces (C34): a
   transaction read at version r is checked against every later one, and its
   manifest is built on the latest.  Manifest migrations for old writers
   (migrate_manifest, fix_schema, migrate_indices) are not modelled. *)
Record entry := { e_txn : txn; e_cfg : wconfig; e_man : manifest; e_idx : list index }.
Definition last_entry (h : list entry) : option entry := nth_error h (length h - 1).
(* transaction.rs:571-587 and commit.rs:763-790 *)
Definition set_version (m : manifest) (v file : N) : manifest :=
  {| m_version := v; m_schema := m_schema m; m_fragments := m_fragments m; m_rflags := m_rflags m; m_wflags := m_wflags m;
     m_max := m_max m; m_next_row := m_next_row m; m_config := m_config m; m_tag := m_tag m; m_txn := Some file |}.
Definition version_entry (h : list entry) (v : N) : option entry := if v =? 0 then None else nth_error h (N.to_nat v - 1).
(* dataset.rs:1663-1681 write_manifest_file: flags and high water mark are set once more *)
Definition finish (c : wconfig) (m : manifest) : bres manifest :=
  bbind (if wc_auto_flags c then feature_flags (m_fragments m) (m_config m) (wc_stable c) else BOk (m_rflags m, m_wflags m)) (fun '(rf, wf) =>
  bbind (update_max_fragment_id (m_max m) (m_fragments m)) (fun mx =>
  BOk {| m_version := m_version m; m_schema := m_schema m; m_fragments := m_fragments m; m_rflags := rf; m_wflags := wf;
         m_max := mx; m_next_row := m_next_row m; m_config := m_config m; m_tag := m_tag m; m_txn := m_txn m |})).
Definition commit_on (h : list entry) (t : txn) (file : N) (c : wconfig) : bres (manifest * list index) :=
  bbind (match last_entry h with
         | None => build_manifest t None [] file c
         | Some e =>
             match t_op t with
             | Restore v => match version_entry h v with
                            | Some old => BOk (set_version (e_man old) (m_version (e_man e) + 1) file, e_idx old)
                            | None => BErr
                            end
             | _ => build_manifest t (Some (e_man e)) (e_idx e) file c
             end
         end) (fun '(m, ix) => bbind (finish c m) (fun m' => BOk (m', ix))).
Inductive history : list entry -> Prop :=
| hist_nil : history []
| hist_next : forall h t c file m ix, history h ->
    (h = [] \/ 1 <= t_read t <= N.of_nat (length h)) ->
    Forall (fun e => conflicts_with (t_op t) (t_op (e_txn e)) = false) (skipn (N.to_nat (t_read t)) h) ->
    commit_on h t file c = BOk (m, ix) ->
    history (h ++ [{| e_txn := t; e_cfg := c; e_man := m; e_idx := ix |}]).
