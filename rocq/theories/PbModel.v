(* Protobuf forms of fragments, indices, manifests and transactions:
   rust/lance-table/src/format/{fragment.rs,index.rs,manifest.rs} and
   rust/lance/src/dataset/transaction.rs:1175-1650, as conversions between the Rust
   structs and the structs prost generates from protos/{table,transaction}.proto.
   (The byte encoding of those structs is prost's and is not modelled.)

   Simplifications: a HashMap is an association list; `usize` is u64; the roaring
   byte format is a pair of functions; prost_types::Any is a type url and bytes;
   numbers are unbounded except where the code casts. *)
From Coq Require Import List Arith NArith ZArith Bool String.
From Verif Require Import Lib SchemaModel.
From Verif Require TxnModel.
Import ListNotations.
Local Open Scope N_scope.

Notation bres := TxnModel.bres.
Notation BOk := TxnModel.BOk.
Notation BErr := TxnModel.BErr.
Notation BPanic := TxnModel.BPanic.
Notation bbind := TxnModel.bbind.

Fixpoint bmap {A B} (f : A -> bres B) (l : list A) : bres (list B) :=
  match l with [] => BOk [] | x :: t => bbind (f x) (fun y => bbind (bmap f t) (fun r => BOk (y :: r))) end.
Definition bopt {A B} (f : A -> bres B) (o : option A) : bres (option B) :=
  match o with None => BOk None | Some a => bbind (f a) (fun b => BOk (Some b)) end.
Definition of_panic {A} (o : option A) : bres A := match o with Some a => BOk a | None => BPanic end.
(* unwrap_or_default, and `if x == 0 { None } else { Some(x) }` *)
Definition or_zero (o : option N) : N := match o with Some n => n | None => 0 end.
Definition zero_none (n : N) : option N := if n =? 0 then None else Some n.
Definition or_empty (o : option string) : string := match o with Some s => s | None => EmptyString end.
Definition empty_none (s : string) : option string := if String.eqb s EmptyString then None else Some s.

(** * Fragments: fragment.rs:28-45, 160-175, 195-215, 228-260 *)
Record data_file := { fl_path : string; fl_fields : list Z; fl_columns : list Z; fl_major : N; fl_minor : N }.
Inductive deletion_type := DArray | DBitmap.
Record deletion_file := { dn_read : N; dn_id : N; dn_type : deletion_type; dn_count : option N }.
Record external_file := { xf_path : string; xf_offset : N; xf_size : N }.
Inductive row_id_meta := Inline (b : list N) | External (f : external_file).
Record frag := { fr_id : N; fr_files : list data_file; fr_del : option deletion_file; fr_rowids : option row_id_meta; fr_rows : option N }.

(* protos/table.proto *)
Record pb_data_file := { pdf_path : string; pdf_fields : list Z; pdf_columns : list Z; pdf_major : N; pdf_minor : N }.
Record pb_deletion_file := { pdl_type : N; pdl_read : N; pdl_id : N; pdl_count : N }.
Inductive pb_row_ids := PInline (b : list N) | PExternal (path : string) (offset size : N).
Record pb_fragment := { pfr_id : N; pfr_files : list pb_data_file; pfr_del : option pb_deletion_file; pfr_rowids : option pb_row_ids; pfr_rows : N }.

(* fragment.rs:121-132 *)
Definition enc_file (f : data_file) : pb_data_file :=
  {| pdf_path := fl_path f; pdf_fields := fl_fields f; pdf_columns := fl_columns f; pdf_major := fl_major f; pdf_minor := fl_minor f |}.
(* fragment.rs:134-146 *)
Definition dec_file (p : pb_data_file) : bres data_file :=
  BOk {| fl_path := pdf_path p; fl_fields := pdf_fields p; fl_columns := pdf_columns p; fl_major := pdf_major p; fl_minor := pdf_minor p |}.
(* fragment.rs:397-408 *)
Definition enc_deletion (d : deletion_file) : pb_deletion_file :=
  {| pdl_type := match dn_type d with DArray => 0 | DBitmap => 1 end; pdl_read := dn_read d; pdl_id := dn_id d; pdl_count := or_zero (dn_count d) |}.
(* fragment.rs:174-203 *)
Definition dec_deletion (p : pb_deletion_file) : bres deletion_file :=
  match pdl_type p with
  | 0 => BOk {| dn_read := pdl_read p; dn_id := pdl_id p; dn_type := DArray; dn_count := zero_none (pdl_count p) |}
  | 1 => BOk {| dn_read := pdl_read p; dn_id := pdl_id p; dn_type := DBitmap; dn_count := zero_none (pdl_count p) |}
  | _ => BErr
  end.
(* fragment.rs:410-419, 217-232 *)
Definition enc_row_ids (r : row_id_meta) : pb_row_ids :=
  match r with Inline b => PInline b | External f => PExternal (xf_path f) (xf_offset f) (xf_size f) end.
Definition dec_row_ids (p : pb_row_ids) : bres row_id_meta :=
  match p with PInline b => BOk (Inline b) | PExternal p o s => BOk (External {| xf_path := p; xf_offset := o; xf_size := s |}) end.
(* fragment.rs:395-429 *)
Definition enc_frag (f : frag) : pb_fragment :=
  {| pfr_id := fr_id f; pfr_files := map enc_file (fr_files f); pfr_del := omap enc_deletion (fr_del f);
     pfr_rowids := omap enc_row_ids (fr_rowids f); pfr_rows := or_zero (fr_rows f) |}.
(* fragment.rs:371-393 *)
Definition dec_frag (p : pb_fragment) : bres frag :=
  bbind (bmap dec_file (pfr_files p)) (fun files =>
  bbind (bopt dec_deletion (pfr_del p)) (fun del =>
  bbind (bopt dec_row_ids (pfr_rowids p)) (fun ids =>
  BOk {| fr_id := pfr_id p; fr_files := files; fr_del := del; fr_rowids := ids; fr_rows := if 0 <? pfr_rows p then Some (pfr_rows p) else None |}))).

(** * Indices: index.rs:16-38 *)
Record any := { an_url : string; an_value : list N }.
Record ixmeta := { im_uuid : list N; im_fields : list Z; im_name : string; im_version : N; im_bitmap : option (list N); im_details : option any }.
Record pb_index := { pi_uuid : option (list N); pi_fields : list Z; pi_name : string; pi_version : N; pi_bitmap : list N; pi_details : option any }.

(* lance-table/src/format.rs:39-62: a Uuid is its 16 bytes *)
Definition dec_uuid (b : list N) : bres (list N) := if (List.length b =? 16)%nat then BOk b else BErr.
(* index.rs:85-108; [ser] is RoaringBitmap::serialize_into *)
Definition enc_index (ser : list N -> list N) (i : ixmeta) : pb_index :=
  {| pi_uuid := Some (im_uuid i); pi_fields := im_fields i; pi_name := im_name i; pi_version := im_version i;
     pi_bitmap := match im_bitmap i with Some b => ser b | None => [] end; pi_details := im_details i |}.
(* index.rs:55-83; [deser] is RoaringBitmap::deserialize_from *)
Definition dec_index (deser : list N -> option (list N)) (p : pb_index) : bres ixmeta :=
  bbind (match pi_bitmap p with
         | [] => BOk None
         | bs => match deser bs with Some b => BOk (Some b) | None => BErr end
         end) (fun bm =>
  match pi_uuid p with
  | None => BErr
  | Some u => bbind (dec_uuid u) (fun u =>
      BOk {| im_uuid := u; im_fields := pi_fields p; im_name := pi_name p; im_version := pi_version p; im_bitmap := bm; im_details := pi_details p |})
  end).

(** * Manifests: manifest.rs:33-92 *)
Record storage_format := { sf_format : string; sf_version : string }.
Record rmanifest := { rm_schema : rschema; rm_local : rschema; rm_version : N; rm_writer : option (string * string); rm_fragments : list frag;
                      rm_aux : N; rm_index_section : option N; rm_nanos : N; rm_tag : option string; rm_rflags : N; rm_wflags : N; rm_max : N;
                      rm_txn : option string; rm_offsets : list N; rm_next_row : N; rm_format : storage_format; rm_config : smap; rm_blob : option N }.
Record pb_manifest := { pm_fields : list pb_field; pm_fragments : list pb_fragment; pm_version : N; pm_aux : N; pm_metadata : smap;
                        pm_writer : option (string * string); pm_index_section : option N; pm_timestamp : option (Z * Z); pm_tag : string;
                        pm_rflags : N; pm_wflags : N; pm_max : N; pm_txn : string; pm_next_row : N;
                        pm_format : option (string * string); pm_config : smap; pm_blob : N }.

(* fragment.rs:271-285: None when unknown; `len - num_deleted_rows` underflows *)
Definition num_rows (f : frag) : bres (option N) :=
  match fr_rows f, fr_del f with
  | Some n, None => BOk (Some n)
  | Some n, Some d => match dn_count d with
                      | Some k => if n <? k then BPanic else BOk (Some (n - k))
                      | None => BOk None
                      end
  | None, _ => BOk None
  end.
(* manifest.rs:102-113 *)
Fixpoint offsets_from (start : N) (fs : list frag) : bres (list N) :=
  match fs with
  | [] => BOk [start]
  | f :: t => bbind (num_rows f) (fun n => bbind (offsets_from (start + or_zero n) t) (fun r => BOk (start :: r)))
  end.
Definition compute_offsets (fs : list frag) : bres (list N) := offsets_from 0 fs.

Definition giga : N := 1000000000.
(* manifest.rs:543-588; `as i64` wraps, nanos < 10^9 fits i32 *)
Definition enc_manifest (m : rmanifest) : pb_manifest :=
  {| pm_fields := fst (enc_schema (rm_schema m)); pm_metadata := snd (enc_schema (rm_schema m));
     pm_version := rm_version m; pm_writer := rm_writer m; pm_fragments := map enc_frag (rm_fragments m);
     pm_aux := rm_aux m; pm_index_section := rm_index_section m;
     pm_timestamp := if rm_nanos m =? 0 then None
                     else let nanos := rm_nanos m mod giga in Some (as_i64 ((rm_nanos m - nanos) / giga mod two64), Z.of_N nanos);
     pm_tag := or_empty (rm_tag m); pm_rflags := rm_rflags m; pm_wflags := rm_wflags m; pm_max := rm_max m;
     pm_txn := or_empty (rm_txn m); pm_next_row := rm_next_row m;
     pm_format := Some (sf_format (rm_format m), sf_version (rm_format m)); pm_config := rm_config m; pm_blob := or_zero (rm_blob m) |}.

(* lance-encoding/src/version.rs:39-52: try_from_major_minor; 10-12 and 65-79: the version strings *)
Inductive file_version := VLegacy | V2_0 | V2_1.
Definition version_of (major minor : N) : option file_version :=
  match major, minor with
  | 0, 0 | 0, 1 | 0, 2 => Some VLegacy
  | 0, 3 | 2, 0 => Some V2_0
  | 2, 1 => Some V2_1
  | _, _ => None
  end.
Definition version_string (v : file_version) : string := match v with VLegacy => "0.1" | V2_0 => "2.0" | V2_1 => "2.1" end.
Definition version_eqb (a b : file_version) : bool :=
  match a, b with VLegacy, VLegacy | V2_0, V2_0 | V2_1, V2_1 => true | _, _ => false end.
(* fragment.rs:336-368: try_infer_version; the first file of the first fragment with files, then all files must agree *)
Definition infer_version (fs : list frag) : bres (option file_version) :=
  match flat_map fr_files fs with
  | [] => BOk None
  | f :: t => match version_of (fl_major f) (fl_minor f) with
              | None => BErr
              | Some v => if forallb (fun g => match version_of (fl_major g) (fl_minor g) with Some w => version_eqb v w | None => false end) (f :: t)
                          then BOk (Some v) else BErr
              end
  end.
Definition format_of (v : file_version) : storage_format := {| sf_format := "lance"; sf_version := version_string v |}.
(* feature_flags.rs: FLAG_USE_V2_FORMAT_DEPRECATED *)
Definition has_deprecated_v2 (w : N) : bool := negb (N.land w 4 =? 0).

(* manifest.rs:458-541; `as u128` of a negative i64 or i32 sign-extends, the sum and product are u128 (not reached here for valid timestamps) *)
Definition two128 : N := 340282366920938463463374607431768211456.
Definition as_u128 (z : Z) : N := Z.to_N (z mod Z.of_N two128).
Definition dec_timestamp (o : option (Z * Z)) : N :=
  match o with None => 0 | Some (s, n) => (as_u128 s * giga + as_u128 n) mod two128 end.
Definition dec_manifest (p : pb_manifest) : bres rmanifest :=
  bbind (bmap dec_frag (pm_fragments p)) (fun fs =>
  bbind (compute_offsets fs) (fun offs =>
  if negb (N.land 2 (pm_rflags p) =? 0) && negb (forallb (fun f => TxnModel.is_some (fr_rowids f)) fs) then BErr else
  bbind (match pm_format p with
         | None => bbind (infer_version fs) (fun o => BOk (match o with
                     | Some v => format_of v
                     | None => if has_deprecated_v2 (pm_wflags p) then format_of V2_0 else format_of VLegacy
                     end))
         | Some (f, v) => BOk {| sf_format := f; sf_version := v |}
         end) (fun fmt =>
  bbind (of_panic (dec_schema (pm_fields p, pm_metadata p))) (fun s =>
  BOk {| rm_schema := s; rm_local := retain_storage_class SDefault s; rm_version := pm_version p; rm_writer := pm_writer p; rm_fragments := fs;
         rm_aux := pm_aux p; rm_index_section := pm_index_section p; rm_nanos := dec_timestamp (pm_timestamp p); rm_tag := empty_none (pm_tag p);
         rm_rflags := pm_rflags p; rm_wflags := pm_wflags p; rm_max := pm_max p; rm_txn := empty_none (pm_txn p); rm_offsets := offs;
         rm_next_row := pm_next_row p; rm_format := fmt; rm_config := pm_config p; rm_blob := zero_none (pm_blob p) |})))).

(** * Transactions: transaction.rs:82-200 *)
Record group := { gr_old : list frag; gr_new : list frag }.
Inductive rop :=
| RAppend (fragments : list frag)
| RDelete (updated : list frag) (deleted : list N) (predicate : string)
| ROverwrite (fragments : list frag) (sch : rschema) (upsert : option smap)
| RCreateIndex (new_indices removed_indices : list ixmeta)
| RRewrite (groups : list group) (rewritten : list (list N * list N))
| RDataReplacement (replacements : list (N * data_file))
| RMerge (fragments : list frag) (sch : rschema)
| RRestore (version : N)
| RReserveFragments (num : N)
| RUpdate (removed : list N) (updated new_fragments : list frag)
| RProject (sch : rschema)
| RUpdateConfig (upsert : option smap) (delete : option (list string)) (smeta : option smap) (fmeta : option (list (N * smap))).
Record rtxn := { rt_read : N; rt_uuid : string; rt_op : rop; rt_blob : option rop; rt_tag : option string }.

(* protos/transaction.proto *)
Inductive pb_op :=
| PAppend (fragments : list pb_fragment)
| PDelete (updated : list pb_fragment) (deleted : list N) (predicate : string)
| POverwrite (fragments : list pb_fragment) (sch : list pb_field) (smeta : smap) (upsert : smap)
| PCreateIndex (new_indices removed_indices : list pb_index)
| PRewrite (old_fragments new_fragments : list pb_fragment) (groups : list (list pb_fragment * list pb_fragment))
           (rewritten : list (option (list N) * option (list N)))
| PMerge (fragments : list pb_fragment) (sch : list pb_field) (smeta : smap)
| PRestore (version : N)
| PReserveFragments (num : N)
| PUpdate (removed : list N) (updated new_fragments : list pb_fragment)
| PProject (sch : list pb_field)
| PUpdateConfig (upsert : smap) (delete : list string) (smeta : smap) (fmeta : list (N * smap))
| PDataReplacement (replacements : list (N * option pb_data_file)).
Inductive pb_blob_op := PBlobAppend (fragments : list pb_fragment) | PBlobOverwrite (fragments : list pb_fragment) (sch : list pb_field) (smeta upsert : smap).
Record pb_txn := { pt_read : N; pt_uuid : string; pt_tag : string; pt_op : option pb_op; pt_blob : option pb_blob_op }.

Definition or_nil {A} (o : option (list A)) : list A := match o with Some l => l | None => [] end.
Definition nil_none {A} (l : list A) : option (list A) := match l with [] => None | _ => Some l end.

Section Codec.
Context (ser : list N -> list N) (deser : list N -> option (list N)).

(* transaction.rs:1470-1591 *)
Definition enc_op (o : rop) : pb_op :=
  match o with
  | RAppend fs => PAppend (map enc_frag fs)
  | RDelete u d p => PDelete (map enc_frag u) d p
  | ROverwrite fs s up => POverwrite (map enc_frag fs) (schema_protos (rs_fields s)) [] (or_nil up)
  | RReserveFragments n => PReserveFragments n
  | RRewrite gs rw => PRewrite [] [] (map (fun g => (map enc_frag (gr_old g), map enc_frag (gr_new g))) gs)
                               (map (fun r => (Some (fst r), Some (snd r))) rw)
  | RCreateIndex n r => PCreateIndex (map (enc_index ser) n) (map (enc_index ser) r)
  | RMerge fs s => PMerge (map enc_frag fs) (schema_protos (rs_fields s)) []
  | RRestore v => PRestore v
  | RUpdate r u n => PUpdate r (map enc_frag u) (map enc_frag n)
  | RProject s => PProject (schema_protos (rs_fields s))
  | RUpdateConfig up de sm fm => PUpdateConfig (or_nil up) (or_nil de) (or_nil sm) (or_nil fm)
  | RDataReplacement r => PDataReplacement (map (fun x => (fst x, Some (enc_file (snd x)))) r)
  end.
(* transaction.rs:1593-1617; None: panic!("Invalid blob operation") *)
Definition enc_blob (o : rop) : option pb_blob_op :=
  match o with
  | RAppend fs => Some (PBlobAppend (map enc_frag fs))
  | ROverwrite fs s up => Some (PBlobOverwrite (map enc_frag fs) (schema_protos (rs_fields s)) [] (or_nil up))
  | _ => None
  end.
(* transaction.rs:1619-1627 *)
Definition enc_txn (t : rtxn) : bres pb_txn :=
  bbind (match rt_blob t with None => BOk None | Some o => bbind (of_panic (enc_blob o)) (fun b => BOk (Some b)) end) (fun b =>
  BOk {| pt_read := rt_read t; pt_uuid := rt_uuid t; pt_tag := or_empty (rt_tag t); pt_op := Some (enc_op (rt_op t)); pt_blob := b |}).

(* transaction.rs:1224-1228: Some exactly when the map is empty *)
Definition dec_upsert (m : smap) : option smap := match m with [] => Some m | _ => None end.
Definition dec_fields (ps : list pb_field) : bres rschema := of_panic (dec_fields_only ps).
(* transaction.rs:1452-1467 *)
Definition dec_group (g : list pb_fragment * list pb_fragment) : bres group :=
  bbind (bmap dec_frag (fst g)) (fun o => bbind (bmap dec_frag (snd g)) (fun n => BOk {| gr_old := o; gr_new := n |})).
(* transaction.rs:1421-1450 *)
Definition dec_rewritten (r : option (list N) * option (list N)) : bres (list N * list N) :=
  match fst r with
  | None => BErr
  | Some o => bbind (dec_uuid o) (fun o => match snd r with None => BErr | Some n => bbind (dec_uuid n) (fun n => BOk (o, n)) end)
  end.
(* transaction.rs:1176-1191 *)
Definition dec_replacement (r : N * option pb_data_file) : bres (N * data_file) :=
  match snd r with None => BErr | Some f => bbind (dec_file f) (fun f => BOk (fst r, f)) end.
(* transaction.rs:1197-1371 *)
Definition dec_op (p : pb_op) : bres rop :=
  match p with
  | PAppend fs => bbind (bmap dec_frag fs) (fun fs => BOk (RAppend fs))
  | PDelete u d p => bbind (bmap dec_frag u) (fun u => BOk (RDelete u d p))
  | POverwrite fs s _ up => bbind (bmap dec_frag fs) (fun fs => bbind (dec_fields s) (fun s => BOk (ROverwrite fs s (dec_upsert up))))
  | PReserveFragments n => BOk (RReserveFragments n)
  | PRewrite olds news gs rw =>
      bbind (match gs with
             | [] => bbind (dec_group (olds, news)) (fun g => BOk [g])
             | _ => bmap dec_group gs
             end) (fun gs => bbind (bmap dec_rewritten rw) (fun rw => BOk (RRewrite gs rw)))
  | PCreateIndex n r => bbind (bmap (dec_index deser) n) (fun n => bbind (bmap (dec_index deser) r) (fun r => BOk (RCreateIndex n r)))
  | PMerge fs s _ => bbind (bmap dec_frag fs) (fun fs => bbind (dec_fields s) (fun s => BOk (RMerge fs s)))
  | PRestore v => BOk (RRestore v)
  | PUpdate r u n => bbind (bmap dec_frag u) (fun u => bbind (bmap dec_frag n) (fun n => BOk (RUpdate r u n)))
  | PProject s => bbind (dec_fields s) (fun s => BOk (RProject s))
  | PUpdateConfig up de sm fm => BOk (RUpdateConfig (nil_none up) (nil_none de) (nil_none sm) (nil_none fm))
  | PDataReplacement r => bbind (bmap dec_replacement r) (fun r => BOk (RDataReplacement r))
  end.
(* transaction.rs:1378-1408 *)
Definition dec_blob (p : pb_blob_op) : bres rop :=
  match p with
  | PBlobAppend fs => bbind (bmap dec_frag fs) (fun fs => BOk (RAppend fs))
  | PBlobOverwrite fs s _ up => bbind (bmap dec_frag fs) (fun fs => bbind (dec_fields s) (fun s => BOk (ROverwrite fs s (dec_upsert up))))
  end.
(* transaction.rs:1193-1419 *)
Definition dec_txn (p : pb_txn) : bres rtxn :=
  match pt_op p with
  | None => BErr
  | Some o => bbind (dec_op o) (fun o => bbind (bopt dec_blob (pt_blob p)) (fun b =>
      BOk {| rt_read := pt_read p; rt_uuid := pt_uuid p; rt_op := o; rt_blob := b; rt_tag := empty_none (pt_tag p) |}))
  end.
End Codec.

(** * The manifest a commit assembles in memory *)

(* manifest.rs:116-145; None: `num_rows` panics while computing offsets. [wv]: WriterVersion::default() *)
Definition new_manifest (wv : string * string) (s : rschema) (fs : list frag) (fmt : storage_format) (blob : option N) : bres rmanifest :=
  bbind (compute_offsets fs) (fun offs =>
  BOk {| rm_schema := s; rm_local := retain_storage_class SDefault s; rm_version := 1; rm_writer := Some wv; rm_fragments := fs; rm_aux := 0;
         rm_index_section := None; rm_nanos := 0; rm_tag := None; rm_rflags := 0; rm_wflags := 0; rm_max := 0; rm_txn := None; rm_offsets := offs;
         rm_next_row := 0; rm_format := fmt; rm_config := []; rm_blob := blob |}).
(* manifest.rs:147-178 *)
Definition manifest_from_previous (wv : string * string) (p : rmanifest) (s : rschema) (fs : list frag) (blob : option N) : bres rmanifest :=
  bbind (compute_offsets fs) (fun offs =>
  BOk {| rm_schema := s; rm_local := retain_storage_class SDefault s; rm_version := rm_version p + 1; rm_writer := Some wv; rm_fragments := fs; rm_aux := 0;
         rm_index_section := None; rm_nanos := 0; rm_tag := None; rm_rflags := 0; rm_wflags := 0; rm_max := rm_max p; rm_txn := None; rm_offsets := offs;
         rm_next_row := rm_next_row p; rm_format := rm_format p; rm_config := rm_config p;
         rm_blob := match blob with Some b => Some b | None => rm_blob p end |}).
(* manifest.rs:197-206 *)
Definition update_config (up c : smap) : smap := fold_left (fun m kv => sm_insert (fst kv) (snd kv) m) up c.
Definition delete_config (ks : list string) (c : smap) : smap := filter (fun kv => negb (existsb (String.eqb (fst kv)) ks)) c.
(* schema.rs:403-414, field.rs:836-847 (field_by_id_mut), then `field.metadata = new_metadata` *)
Definition set_meta (a : attrs) (md : smap) : attrs :=
  {| a_name := a_name a; a_id := a_id a; a_parent := a_parent a; a_type := a_type a; a_meta := md;
     a_enc := a_enc a; a_null := a_null a; a_dict := a_dict a; a_storage := a_storage a |}.
Fixpoint meta_in (i : Z) (md : smap) (f : rfield) : option rfield :=
  match f with
  | RF a ch =>
      if (a_id a =? i)%Z then Some (RF (set_meta a md) ch)
      else omap (RF a) ((fix go (l : list rfield) : option (list rfield) :=
                           match l with
                           | [] => None
                           | x :: t => match meta_in i md x with Some x' => Some (x' :: t) | None => omap (cons x) (go t) end
                           end) ch)
  end.
Fixpoint meta_at (i : Z) (md : smap) (l : list rfield) : option (list rfield) :=
  match l with
  | [] => None
  | x :: t => match meta_in i md x with Some x' => Some (x' :: t) | None => omap (cons x) (meta_at i md t) end
  end.
(* manifest.rs:208-220; `field_id as i32` of a u32 *)
Definition as_i32 (n : N) : Z := if n <? 2147483648 then Z.of_N n else (Z.of_N n - 4294967296)%Z.
Definition set_schema (m : rmanifest) (s : rschema) : rmanifest :=
  {| rm_schema := s; rm_local := rm_local m; rm_version := rm_version m; rm_writer := rm_writer m; rm_fragments := rm_fragments m;
     rm_aux := rm_aux m; rm_index_section := rm_index_section m; rm_nanos := rm_nanos m; rm_tag := rm_tag m; rm_rflags := rm_rflags m;
     rm_wflags := rm_wflags m; rm_max := rm_max m; rm_txn := rm_txn m; rm_offsets := rm_offsets m; rm_next_row := rm_next_row m;
     rm_format := rm_format m; rm_config := rm_config m; rm_blob := rm_blob m |}.
Definition update_schema_metadata (md : smap) (m : rmanifest) : rmanifest := set_schema m {| rs_fields := rs_fields (rm_schema m); rs_meta := md |}.
Definition update_field_metadata (i : N) (md : smap) (m : rmanifest) : rmanifest :=
  match meta_at (as_i32 i) md (rs_fields (rm_schema m)) with
  | Some l => set_schema m {| rs_fields := l; rs_meta := rs_meta (rm_schema m) |}
  | None => m
  end.
(* feature_flags.rs:26-65 *)
Definition r_flags (fs : list frag) (config : smap) (stable : bool) : bres (N * N) :=
  let del := if existsb (fun f => TxnModel.is_some (fr_del f)) fs then 1 else 0 in
  let cfg := match config with [] => 0 | _ => 8 end in
  if existsb (fun f => TxnModel.is_some (fr_rowids f)) fs || stable
  then if forallb (fun f => TxnModel.is_some (fr_rowids f)) fs then BOk (N.lor del 2, N.lor (N.lor del 2) cfg) else BErr
  else BOk (del, N.lor del cfg).
(* manifest.rs:222-235 *)
Definition r_max_fragment (mx : N) (fs : list frag) : bres N :=
  let m := fold_right N.max 0 (map fr_id fs) in
  if 4294967296 <=? m then BPanic else BOk (if mx <? m then m else mx).
(* transaction.rs:915-1006: from the schema and fragments of the new version to its manifest.
   [fmt]: the storage format chosen at 915-948; [flags]: auto_set_feature_flags, use_move_stable_row_ids *)
Record assembly := { as_writer : string * string; as_format : storage_format; as_blob : option N; as_tag : option string;
                     as_flags : option bool; as_nanos : N; as_path : string; as_next : option N }.
Definition set_rest (m : rmanifest) (c : assembly) (fmt : storage_format) (rf wf mx : N) (cfg : smap) : rmanifest :=
  {| rm_schema := rm_schema m; rm_local := rm_local m; rm_version := rm_version m; rm_writer := rm_writer m; rm_fragments := rm_fragments m;
     rm_aux := rm_aux m; rm_index_section := rm_index_section m; rm_nanos := as_nanos c; rm_tag := as_tag c; rm_rflags := rf; rm_wflags := wf;
     rm_max := mx; rm_txn := Some (as_path c); rm_offsets := rm_offsets m;
     rm_next_row := match as_next c with Some n => n | None => rm_next_row m end;
     rm_format := fmt; rm_config := cfg; rm_blob := rm_blob m |}.
Definition assemble (o : rop) (prev : option rmanifest) (s : rschema) (fs : list frag) (c : assembly) : bres rmanifest :=
  bbind (match prev with
         | Some p => manifest_from_previous (as_writer c) p s fs (as_blob c)
         | None => new_manifest (as_writer c) s fs (as_format c) (as_blob c)
         end) (fun m =>
  bbind (match as_flags c with Some stable => r_flags (rm_fragments m) (rm_config m) stable | None => BOk (0, 0) end) (fun '(rf, wf) =>
  bbind (r_max_fragment (rm_max m) (rm_fragments m)) (fun mx =>
  let cfg := match o with
             | ROverwrite _ _ (Some up) => update_config up (rm_config m)
             | RUpdateConfig up de _ _ =>
                 let c1 := match de with Some ks => delete_config ks (rm_config m) | None => rm_config m end in
                 match up with Some u => update_config u c1 | None => c1 end
             | _ => rm_config m
             end in
  let mx := match o with RReserveFragments n => mx + n | _ => mx end in
  let fmt := match o with ROverwrite _ _ _ => as_format c | _ => rm_format m end in
  let m1 := set_rest m c fmt rf wf mx cfg in
  BOk (match o with
       | RUpdateConfig _ _ sm fm =>
           let m2 := match sm with Some md => update_schema_metadata md m1 | None => m1 end in
           match fm with Some ups => fold_left (fun m u => update_field_metadata (fst u) (snd u) m) ups m2 | None => m2 end
       | _ => m1
       end)))).
