(* Vocabulary for the properties of table histories, independent of how
   manifests are built. *)
From Coq Require Import List Arith NArith ZArith Bool.
From Verif Require Import Lib AMap TreeMapModel SerdeModel TxnModel.
Import ListNotations.
Local Open Scope N_scope.

Definition frag_ids (m : manifest) : list N := map f_id (m_fragments m).
(* the manifest of version v of a history *)
Definition man_at (h : list entry) (v : N) : option manifest := option_map e_man (version_entry h v).
(* the latest manifest *)
Definition latest (h : list entry) : option manifest := option_map e_man (last_entry h).
(* fragments written by an operation *)
Definition new_fragments (o : op) : list fragment :=
  match o with
  | Append l | Overwrite l _ _ | Update _ _ l => l
  | Rewrite gs _ => flat_map rg_new gs
  | _ => []
  end.
(* the fragment ids a writer chose itself (0 means: assign one at commit) *)
Definition chosen_ids (l : list fragment) : list N := filter (fun i => negb (i =? 0)) (map f_id l).
Definition used (h : list entry) (i : N) : Prop := exists e, In e h /\ In i (frag_ids (e_man e)).

(* what a writer must do about fragment ids: leave them to the commit, or use
   distinct ids that a ReserveFragments commit has set aside and nobody used *)
Definition ids_honest (h : list entry) (t : txn) : Prop :=
  match t_op t with
  | Append l | Update _ _ l =>
      NoDup (chosen_ids l) /\ forall i, In i (chosen_ids l) -> ~ used h i /\ exists m, latest h = Some m /\ i <= m_max m
  | Rewrite gs _ =>
      NoDup (chosen_ids (flat_map rg_new gs)) /\
      forall i, In i (chosen_ids (flat_map rg_new gs)) -> ~ used h i /\ exists m, latest h = Some m /\ i <= m_max m
  | Overwrite l _ _ => chosen_ids l = []
  | Merge l _ => exists m, man_at h (t_read t) = Some m /\ map f_id l = frag_ids m
  | DataReplacement r => NoDup (map fst r)
  | _ => True
  end.
Definition all_entries (P : list entry -> txn -> Prop) (h : list entry) : Prop :=
  forall h1 e h2, h = h1 ++ e :: h2 -> P h1 (e_txn e).

Definition is_reset (o : op) : bool := match o with Overwrite _ _ _ | Restore _ => true | _ => false end.

(* ---- C36: row-changing operations ---- *)
Definition row_op (o : op) : Prop := match o with Delete _ _ | Update _ _ _ | Rewrite _ _ => True | _ => False end.
(* the operation replaces or removes the fragment with this id *)
Definition touches (o : op) (i : N) : Prop :=
  match o with
  | Delete updated deleted => In i deleted \/ exists u, In u updated /\ f_id u = i
  | Update removed updated _ => In i removed \/ exists u, In u updated /\ f_id u = i
  | Rewrite groups _ => exists g o, In g groups /\ In o (rg_old g) /\ f_id o = i
  | _ => False
  end.
(* the same rows, possibly without the data files of dropped columns *)
Definition same_rows (a b : fragment) : Prop :=
  f_id b = f_id a /\ f_del b = f_del a /\ f_rowids b = f_rowids a /\ f_rows b = f_rows a /\
  forall d, In d (f_files b) -> In d (f_files a).
Definition is_project (o : op) : bool := match o with Project _ => true | _ => false end.
(* the transactions committed after version r *)
Definition since (h : list entry) (r : N) : list entry := skipn (N.to_nat r) h.
(* the same rows with the same deletions, whatever the columns *)
Definition same_deletions (a b : fragment) : Prop :=
  f_id b = f_id a /\ f_del b = f_del a /\ f_rowids b = f_rowids a /\ f_rows b = f_rows a.
(* a Merge adds columns to the fragments of the version it read *)
Definition merge_honest (h : list entry) (t : txn) : Prop :=
  match t_op t with
  | Merge l _ => exists m, man_at h (t_read t) = Some m /\ Forall2 same_deletions (m_fragments m) l
  | _ => True
  end.

(* ---- C39: stable row ids ---- *)
Definition frag_row_ids (f : fragment) : list N := match f_rowids f with Some l => l | None => [] end.
Definition row_ids (m : manifest) : list N := flat_map frag_row_ids (m_fragments m).
Definition row_used (h : list entry) (x : N) : Prop := exists e, In e h /\ In x (row_ids (e_man e)).
(* what a writer must do about row ids: new fragments carry none, changed
   fragments keep theirs, a rewrite moves the ids of its old fragments *)
Definition rowids_honest (h : list entry) (t : txn) : Prop :=
  let keeps u := exists m f, man_at h (t_read t) = Some m /\ In f (m_fragments m) /\ f_id f = f_id u /\ f_rowids f = f_rowids u in
  match t_op t with
  | Append l | Overwrite l _ _ => Forall (fun f => f_rowids f = None) l
  | Delete updated _ => Forall keeps updated
  | Update _ updated l => Forall keeps updated /\ Forall (fun f => f_rowids f = None) l
  | Merge l _ => Forall keeps l
  | Rewrite gs _ => Forall (fun g => Forall keeps (rg_old g)) gs /\ NoDup (flat_map frag_row_ids (flat_map rg_new gs)) /\
                    forall x, In x (flat_map frag_row_ids (flat_map rg_new gs)) -> In x (flat_map frag_row_ids (flat_map rg_old gs))
  | _ => True
  end.
Definition no_restore (h : list entry) : Prop := forall e v, In e h -> t_op (e_txn e) <> Restore v.

(* ---- C42: config updates ---- *)
(* what an operation does to a config key: Some (Some v) sets it, Some None
   removes it, None leaves it *)
Definition cfg_writes (o : op) (k : N) : option (option N) :=
  match o with
  | Overwrite _ _ (Some m) => match get k m with Some v => Some (Some v) | None => None end
  | UpdateConfig up de _ _ =>
      match match up with Some m => get k m | None => None end with
      | Some v => Some (Some v)
      | None => match de with Some d => if in_dec N.eq_dec k d then Some None else None | None => None end
      end
  | _ => None
  end.
Definition is_config (o : op) : Prop := match o with UpdateConfig _ _ _ _ => True | _ => False end.
(* HashMaps have one value per key *)
Definition cfg_wf (o : op) : Prop :=
  match o with
  | Overwrite _ _ (Some m) => am_wf m
  | UpdateConfig up _ sm fm => match up with Some m => am_wf m | None => True end /\ match fm with Some m => am_wf m | None => True end
  | _ => True
  end.
(* the field and schema metadata an operation replaces *)
Definition sets_schema_meta (o : op) : Prop := match o with UpdateConfig _ _ (Some _) _ => True | _ => False end.
Definition sets_field_meta (o : op) (id : N) : Prop := match o with UpdateConfig _ _ _ (Some m) => In id (keys m) | _ => False end.
(* ---- C43: feature flags ---- *)
Definition needs_deletion_files (m : manifest) : Prop := exists f, In f (m_fragments m) /\ f_del f <> None.
Definition has_row_ids (m : manifest) : Prop := exists f, In f (m_fragments m) /\ f_rowids f <> None.
