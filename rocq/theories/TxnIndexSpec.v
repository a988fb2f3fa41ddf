(* C44: what it means for an index to cover a fragment, independent of how manifests are built. *)
From Coq Require Import List Arith NArith ZArith Bool.
From Verif Require Import Lib AMap TreeMapModel SerdeModel TxnModel TxnSpec.
Import ListNotations.
Local Open Scope N_scope.

(* what an index entry points to: an address (fragment, offset), or a stable row id *)
Inductive ref := RAddr (frag off : N) | RId (id : N).
(* where a column of a fragment is read from: a file, and a place in it (the position among the
   file's fields, and among its columns) *)
Record place := { pl_path : N; pl_pos : nat; pl_col : option Z }.
Fixpoint index_of (z : Z) (l : list Z) : nat := match l with [] => 0%nat | y :: t => if (z =? y)%Z then 0%nat else S (index_of z t) end.
Definition source (z : Z) (f : fragment) : option place :=
  match find (fun d => existsb (Z.eqb z) (df_fields d)) (f_files f) with
  | Some d => Some {| pl_path := df_path d; pl_pos := index_of z (df_fields d); pl_col := nth_error (df_cols d) (index_of z (df_fields d)) |}
  | None => None
  end.
Definition sources (zs : list Z) (f : fragment) : list (option place) := map (fun z => source z f) zs.
(* the files outside the manifest: the values stored at an offset of some columns, the offsets a
   deletion file lists, the entries of an index file *)
Record world := { w_val : Type; w_value : list (option place) -> N -> w_val; w_gone : N -> delfile -> N -> Prop; w_entry : N -> ref -> w_val -> Prop }.

Definition gone (w : world) (f : fragment) (off : N) : Prop := match f_del f with Some d => w_gone w (f_id f) d off | None => False end.
Definition live (w : world) (f : fragment) (off : N) : Prop := (exists n, f_rows f = Some n /\ off < n) /\ ~ gone w f off.
Definition row_ref (f : fragment) (off : N) : option ref :=
  match f_rowids f with Some l => option_map RId (nth_error l (N.to_nat off)) | None => Some (RAddr (f_id f) off) end.
(* every live row of the fragment is in the index, with its current values *)
Definition has_rows (w : world) (uuid : N) (zs : list Z) (f : fragment) : Prop :=
  forall off, live w f off -> exists a, row_ref f off = Some a /\ w_entry w uuid a (w_value w (sources zs f) off).

(* the property: whatever an index claims of a version's fragments is true, and its fields exist *)
Definition claims_true (w : world) (e : entry) : Prop :=
  forall ix, In ix (e_idx e) ->
    (forall z, In z (ix_fields ix) -> In z (field_ids (m_schema (e_man e)))) /\
    forall b f, ix_bitmap ix = Some b -> In f (m_fragments (e_man e)) -> In (f_id f) b -> has_rows w (ix_uuid ix) (ix_fields ix) f.

(* ---- what the writer of each transaction must have done, at the version it read ---- *)
Definition fresh_uuid (h : list entry) (u : N) : Prop := forall e ix, In e h -> In ix (e_idx e) -> ix_uuid ix <> u.
(* the same fragment with more rows deleted; its columns may have been rewritten in place *)
Definition more_deleted (w : world) (f u : fragment) : Prop :=
  f_id u = f_id f /\ f_rowids u = f_rowids f /\ f_rows u = f_rows f /\ forall off, gone w f off -> gone w u off.
(* the rows of a group's new fragments are rows of its old fragments; mv says where references go *)
Definition moved (w : world) (mv : ref -> option ref) (fields : list Z) (g : rewrite_group) : Prop :=
  forall n off, In n (rg_new g) -> live w n off -> exists o off' a a', In o (rg_old g) /\ live w o off' /\ row_ref o off' = Some a /\ row_ref n off = Some a' /\ mv a = Some a' /\
    forall zs, incl zs fields -> w_value w (sources zs n) off = w_value w (sources zs o) off'.
(* a version without fragments on which id 0 would be given out (again) *)
Definition emptied (m : manifest) : Prop := m_fragments m = [] /\ m_max m = 0.
Definition writer_honest (w : world) (h : list entry) (t : txn) : Prop :=
  match t_op t with
  | Delete updated _ => Forall (fun u => exists m f, man_at h (t_read t) = Some m /\ In f (m_fragments m) /\ more_deleted w f u /\ forall z, source z u = source z f) updated
  | Update _ updated _ => Forall (fun u => exists m f, man_at h (t_read t) = Some m /\ In f (m_fragments m) /\ more_deleted w f u) updated
  | Merge l s => exists m, man_at h (t_read t) = Some m /\
      Forall2 (fun f u => same_deletions f u /\ forall z, In z (field_ids (m_schema m)) -> In z (field_ids s) -> source z u = source z f) (m_fragments m) l
  | CreateIndex news _ => NoDup (map ix_uuid news) /\ (forall ix, In ix news -> fresh_uuid h (ix_uuid ix)) /\
      exists e0, version_entry h (t_read t) = Some e0 /\ forall ix, In ix news ->
        incl (ix_fields ix) (field_ids (m_schema (e_man e0))) /\
        forall b i, ix_bitmap ix = Some b -> In i b ->
          (* a fragment of that version, or one an existing index already listed *)
          (In i (frag_ids (e_man e0)) \/ exists ix' b', In ix' (e_idx e0) /\ ix_bitmap ix' = Some b' /\ In i b') /\
          forall f, In f (m_fragments (e_man e0)) -> f_id f = i -> has_rows w (ix_uuid ix) (ix_fields ix) f
  | Rewrite gs rw => exists e0, version_entry h (t_read t) = Some e0 /\
      (forall g o, In g gs -> In o (rg_old g) -> In o (m_fragments (e_man e0))) /\
      (* new fragments have reserved ids *)
      (forall g n, In g gs -> In n (rg_new g) -> f_id n <> 0) /\
      exists m, latest h = Some m /\
      ((* stable row ids: rows keep their ids, indices their files *)
       (uses_stable m = true /\ rw = [] /\ forall g, In g gs -> moved w Some (field_ids (m_schema (e_man e0))) g) \/
       (* addresses: every index that lists an old fragment is remapped into a new file *)
       (uses_stable m = false /\
        NoDup (map rw_new rw) /\ (forall r, In r rw -> fresh_uuid h (rw_new r)) /\ (forall r, In r rw -> exists ix, In ix (e_idx e0) /\ ix_uuid ix = rw_old r) /\
        (forall ix b i, In ix (e_idx e0) -> ~ In (ix_uuid ix) (map rw_old rw) -> ix_bitmap ix = Some b -> In i b -> ~ In i (map f_id (flat_map rg_old gs))) /\
        exists mv, (forall i off, ~ In i (map f_id (flat_map rg_old gs)) -> mv (RAddr i off) = Some (RAddr i off)) /\ (forall x, mv (RId x) = Some (RId x)) /\
          (forall r a a' v, In r rw -> w_entry w (rw_old r) a v -> mv a = Some a' -> w_entry w (rw_new r) a' v) /\
          forall g, In g gs -> moved w mv (field_ids (m_schema (e_man e0))) g))
  | _ => True
  end.
(* what the commit loop does not enforce, and coverage needs *)
Definition enough_checked (h : list entry) (t : txn) : Prop :=
  match t_op t with
  | CreateIndex news _ =>
      (* while the index was built, the table was not emptied, and the columns stayed and were not rewritten in place *)
      (forall v e, t_read t <= v -> version_entry h v = Some e -> ~ emptied (e_man e)) /\
      forall m0 m ix z, man_at h (t_read t) = Some m0 -> latest h = Some m -> In ix news -> In z (ix_fields ix) ->
        In z (field_ids (m_schema m)) /\ forall f0 f, In f0 (m_fragments m0) -> In f (m_fragments m) -> f_id f = f_id f0 -> source z f = source z f0
  | Update _ updated _ =>
      (* columns rewritten in place are not indexed *)
      forall m0 e ix z u f, man_at h (t_read t) = Some m0 -> last_entry h = Some e -> In ix (e_idx e) -> In z (ix_fields ix) ->
        In u updated -> In f (m_fragments m0) -> f_id f = f_id u -> source z u = source z f
  | DataReplacement r =>
      (* the replaced columns are not indexed *)
      forall e ix id d z, last_entry h = Some e -> In ix (e_idx e) -> In (id, d) r -> In z (df_fields d) -> ~ In z (ix_fields ix)
  | Project s =>
      (* not computed on a schema that an Overwrite has replaced (C37) *)
      forall m, latest h = Some m -> incl (field_ids s) (field_ids (m_schema m))
  | _ => True
  end.
