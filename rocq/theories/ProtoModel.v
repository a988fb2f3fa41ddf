(* Commit handlers as concurrent programs:
   rust/lance-table/src/io/commit.rs:719-892 (UnsafeCommitHandler, CommitLock,
   RenameCommitHandler) and rust/lance-table/src/io/commit/external_manifest.rs.

   Any number of processes, each a commit attempt or a reader with a fresh number,
   run interleaved; every call to the object store, the lock or the external store is
   one atomic step; a process may stop (crash) between any two steps.  A failing call
   may or may not have been applied, except where said.  Simplifications: the content
   of a manifest is an opaque value; paths are the final path of a version under a
   naming scheme and staging paths made unique by the attempt (a uuid in the code);
   listing for the latest version is any committed version (C68 treats the listing);
   nothing else removes objects. *)
From Coq Require Import List NArith Bool.
From Verif Require Import Lib NamingModel.
Import ListNotations.
Local Open Scope N_scope.

(* ---- labelled transition systems ---- *)
Record lts (L : Type) := { lst : Type; linit : lst -> Prop; lstep : lst -> option L -> lst -> Prop }.
Arguments lst {L}. Arguments linit {L}. Arguments lstep {L}.
Inductive run {L} (H : lts L) : lst H -> list L -> lst H -> Prop :=
| run_nil : forall s, run H s [] s
| run_tau : forall s tr s1 s2, run H s tr s1 -> lstep H s1 None s2 -> run H s tr s2
| run_lab : forall s tr s1 l s2, run H s tr s1 -> lstep H s1 (Some l) s2 -> run H s (tr ++ [l]) s2.

(* ---- what the users of a handler see ---- *)
Inductive ret := ROk | RConflict | RErr.
Inductive label (A : Type) :=
| LBegin (a v : N) (x : A)     (* attempt a: commit(manifest x with version v) is called *)
| LRet (a : N) (r : ret)       (* that call returns *)
| LRead (v : N) (x : A)        (* a reader of version v has read x *)
| LLatest (v : N)              (* a reader resolved the latest version *)
| LGone (v : N).               (* a reader of a removed version gets NotFound *)
Arguments LBegin {A}. Arguments LRet {A}. Arguments LRead {A}. Arguments LLatest {A}. Arguments LGone {A}.

Inductive path := PFinal (s : scheme) (v : N) | PStage (s : scheme) (v a : N).
Definition path_eqb (p q : path) : bool :=
  match p, q with
  | PFinal s v, PFinal s' v' => scheme_eqb s s' && (v =? v')
  | PStage s v a, PStage s' v' a' => scheme_eqb s s' && (v =? v') && (a =? a')
  | _, _ => false
  end.
Definition upN {B} (f : N -> B) (k : N) (b : B) : N -> B := fun j => if j =? k then b else f j.
Definition upP {B} (f : path -> B) (k : path) (b : B) : path -> B := fun j => if path_eqb j k then b else f j.

(* ---- RenameCommitHandler, commit.rs:851-892 ---- *)
Inductive rpc (A : Type) :=
| RNone | R0 (v : N) (x : A) (s : scheme)     (* 870: about to write the temporary object *)
| R1 (v : N) (x : A) (s : scheme)             (* 874: about to rename *)
| RDel (v : N) (x : A) (s : scheme)           (* 883: about to delete the temporary object *)
| RRet (v : N) (x : A) (r : ret) | RDone.
Arguments RNone {A}. Arguments R0 {A}. Arguments R1 {A}. Arguments RDel {A}. Arguments RRet {A}. Arguments RDone {A}.
Record rst (A : Type) := { r_obj : path -> option A; r_pc : N -> rpc A }.
Arguments r_obj {A}. Arguments r_pc {A}.
(* ok: the naming schemes the writers use *)
Inductive rename_step {A} (ok : scheme -> Prop) : rst A -> option (label A) -> rst A -> Prop :=
| rn_begin : forall o pc a v x s, pc a = RNone -> ok s ->
    rename_step ok {| r_obj := o; r_pc := pc |} (Some (LBegin a v x)) {| r_obj := o; r_pc := upN pc a (R0 v x s) |}
| rn_write : forall o pc a v x s, pc a = R0 v x s ->
    rename_step ok {| r_obj := o; r_pc := pc |} None {| r_obj := upP o (PStage s v a) (Some x); r_pc := upN pc a (R1 v x s) |}
| rn_write_err : forall (b : bool) o pc a v x s, pc a = R0 v x s ->
    rename_step ok {| r_obj := o; r_pc := pc |} None {| r_obj := if b then upP o (PStage s v a) (Some x) else o; r_pc := upN pc a (RRet v x RErr) |}
| rn_rename : forall (lost : bool) o pc a v x s, pc a = R1 v x s -> o (PFinal s v) = None ->
    rename_step ok {| r_obj := o; r_pc := pc |} None
      {| r_obj := upP (upP o (PFinal s v) (o (PStage s v a))) (PStage s v a) None; r_pc := upN pc a (RRet v x (if lost then RErr else ROk)) |}
| rn_exists : forall o pc a v x s, pc a = R1 v x s -> o (PFinal s v) <> None ->
    rename_step ok {| r_obj := o; r_pc := pc |} None {| r_obj := o; r_pc := upN pc a (RDel v x s) |}
| rn_err : forall o pc a v x s, pc a = R1 v x s ->
    rename_step ok {| r_obj := o; r_pc := pc |} None {| r_obj := o; r_pc := upN pc a (RRet v x RErr) |}
| rn_del : forall (b : bool) o pc a v x s, pc a = RDel v x s ->
    rename_step ok {| r_obj := o; r_pc := pc |} None {| r_obj := if b then upP o (PStage s v a) None else o; r_pc := upN pc a (RRet v x RConflict) |}
| rn_ret : forall o pc a v x r, pc a = RRet v x r ->
    rename_step ok {| r_obj := o; r_pc := pc |} (Some (LRet a r)) {| r_obj := o; r_pc := upN pc a RDone |}
| rn_crash : forall o pc a, pc a <> RNone -> rename_step ok {| r_obj := o; r_pc := pc |} None {| r_obj := o; r_pc := upN pc a RDone |}
| rn_read : forall o pc s v x, o (PFinal s v) = Some x ->
    rename_step ok {| r_obj := o; r_pc := pc |} (Some (LRead v x)) {| r_obj := o; r_pc := pc |}
| rn_latest : forall o pc s v x, o (PFinal s v) = Some x ->
    rename_step ok {| r_obj := o; r_pc := pc |} (Some (LLatest v)) {| r_obj := o; r_pc := pc |}.
Definition rename_lts (A : Type) (ok : scheme -> Prop) : lts (label A) :=
  {| lst := rst A; linit := fun s => (forall p, r_obj s p = None) /\ (forall a, r_pc s a = RNone); lstep := rename_step ok |}.

(* ---- CommitLock, commit.rs:752-822; one lock per version, freed when its holder
   crashes.  With [expires] a lock may also be freed under a live holder. ---- *)
Inductive kpc (A : Type) :=
| KNone | K0 (v : N) (x : A) (s : scheme)     (* 794: about to lock *)
| K1 (v : N) (x : A) (s : scheme)             (* 797: about to head *)
| K2 (v : N) (x : A) (s : scheme)             (* 815: about to write the manifest *)
| KRel (v : N) (x : A) (r : ret)              (* 802, 810, 818: about to release *)
| KRet (v : N) (x : A) (r : ret) | KDone.
Arguments KNone {A}. Arguments K0 {A}. Arguments K1 {A}. Arguments K2 {A}. Arguments KRel {A}. Arguments KRet {A}. Arguments KDone {A}.
Record kst (A : Type) := { k_obj : path -> option A; k_lock : N -> option N; k_pc : N -> kpc A }.
Arguments k_obj {A}. Arguments k_lock {A}. Arguments k_pc {A}.
Definition free (l : N -> option N) (a : N) : N -> option N :=
  fun v => match l v with Some b => if b =? a then None else Some b | None => None end.
Inductive lock_step {A} (ok : scheme -> Prop) (expires : bool) : kst A -> option (label A) -> kst A -> Prop :=
| lk_begin : forall o l pc a v x s, pc a = KNone -> ok s ->
    lock_step ok expires {| k_obj := o; k_lock := l; k_pc := pc |} (Some (LBegin a v x)) {| k_obj := o; k_lock := l; k_pc := upN pc a (K0 v x s) |}
| lk_lock : forall o l pc a v x s, pc a = K0 v x s -> l v = None ->
    lock_step ok expires {| k_obj := o; k_lock := l; k_pc := pc |} None {| k_obj := o; k_lock := upN l v (Some a); k_pc := upN pc a (K1 v x s) |}
| lk_lock_err : forall o l pc a v x s r, pc a = K0 v x s -> r <> ROk ->
    lock_step ok expires {| k_obj := o; k_lock := l; k_pc := pc |} None {| k_obj := o; k_lock := l; k_pc := upN pc a (KRet v x r) |}
| lk_head_found : forall o l pc a v x s, pc a = K1 v x s -> o (PFinal s v) <> None ->
    lock_step ok expires {| k_obj := o; k_lock := l; k_pc := pc |} None {| k_obj := o; k_lock := l; k_pc := upN pc a (KRel v x RConflict) |}
| lk_head_none : forall o l pc a v x s, pc a = K1 v x s -> o (PFinal s v) = None ->
    lock_step ok expires {| k_obj := o; k_lock := l; k_pc := pc |} None {| k_obj := o; k_lock := l; k_pc := upN pc a (K2 v x s) |}
| lk_head_err : forall o l pc a v x s, pc a = K1 v x s ->
    lock_step ok expires {| k_obj := o; k_lock := l; k_pc := pc |} None {| k_obj := o; k_lock := l; k_pc := upN pc a (KRel v x RErr) |}
| lk_write : forall o l pc a v x s, pc a = K2 v x s ->
    lock_step ok expires {| k_obj := o; k_lock := l; k_pc := pc |} None {| k_obj := upP o (PFinal s v) (Some x); k_lock := l; k_pc := upN pc a (KRel v x ROk) |}
| lk_write_err : forall (b : bool) o l pc a v x s, pc a = K2 v x s ->
    lock_step ok expires {| k_obj := o; k_lock := l; k_pc := pc |} None
      {| k_obj := if b then upP o (PFinal s v) (Some x) else o; k_lock := l; k_pc := upN pc a (KRel v x RErr) |}
| lk_release : forall o l pc a v x r, pc a = KRel v x r ->
    lock_step ok expires {| k_obj := o; k_lock := l; k_pc := pc |} None {| k_obj := o; k_lock := free l a; k_pc := upN pc a (KRet v x r) |}
| lk_release_err : forall (b : bool) o l pc a v x r, pc a = KRel v x r ->
    lock_step ok expires {| k_obj := o; k_lock := l; k_pc := pc |} None {| k_obj := o; k_lock := if b then free l a else l; k_pc := upN pc a (KRet v x RErr) |}
| lk_ret : forall o l pc a v x r, pc a = KRet v x r ->
    lock_step ok expires {| k_obj := o; k_lock := l; k_pc := pc |} (Some (LRet a r)) {| k_obj := o; k_lock := l; k_pc := upN pc a KDone |}
| lk_crash : forall o l pc a, pc a <> KNone ->
    lock_step ok expires {| k_obj := o; k_lock := l; k_pc := pc |} None {| k_obj := o; k_lock := free l a; k_pc := upN pc a KDone |}
| lk_expire : forall o l pc v, expires = true ->
    lock_step ok expires {| k_obj := o; k_lock := l; k_pc := pc |} None {| k_obj := o; k_lock := upN l v None; k_pc := pc |}
| lk_read : forall o l pc s v x, o (PFinal s v) = Some x ->
    lock_step ok expires {| k_obj := o; k_lock := l; k_pc := pc |} (Some (LRead v x)) {| k_obj := o; k_lock := l; k_pc := pc |}
| lk_latest : forall o l pc s v x, o (PFinal s v) = Some x ->
    lock_step ok expires {| k_obj := o; k_lock := l; k_pc := pc |} (Some (LLatest v)) {| k_obj := o; k_lock := l; k_pc := pc |}.
Definition lock_lts (A : Type) (ok : scheme -> Prop) (expires : bool) : lts (label A) :=
  {| lst := kst A;
     linit := fun s => (forall p, k_obj s p = None) /\ (forall v, k_lock s v = None) /\ (forall a, k_pc s a = KNone);
     lstep := lock_step ok expires |}.

(* ---- UnsafeCommitHandler, commit.rs:719-747 ---- *)
Inductive upc (A : Type) := UNone | U0 (v : N) (x : A) (s : scheme) | URet (r : ret) | UDone.
Arguments UNone {A}. Arguments U0 {A}. Arguments URet {A}. Arguments UDone {A}.
Record ust (A : Type) := { u_obj : path -> option A; u_pc : N -> upc A }.
Arguments u_obj {A}. Arguments u_pc {A}.
Inductive unsafe_step {A} : ust A -> option (label A) -> ust A -> Prop :=
| un_begin : forall o pc a v x s, pc a = UNone ->
    unsafe_step {| u_obj := o; u_pc := pc |} (Some (LBegin a v x)) {| u_obj := o; u_pc := upN pc a (U0 v x s) |}
| un_write : forall o pc a v x s, pc a = U0 v x s ->
    unsafe_step {| u_obj := o; u_pc := pc |} None {| u_obj := upP o (PFinal s v) (Some x); u_pc := upN pc a (URet ROk) |}
| un_ret : forall o pc a r, pc a = URet r ->
    unsafe_step {| u_obj := o; u_pc := pc |} (Some (LRet a r)) {| u_obj := o; u_pc := upN pc a UDone |}
| un_read : forall o pc s v x, o (PFinal s v) = Some x ->
    unsafe_step {| u_obj := o; u_pc := pc |} (Some (LRead v x)) {| u_obj := o; u_pc := pc |}.
Definition unsafe_lts (A : Type) : lts (label A) :=
  {| lst := ust A; linit := fun s => (forall p, u_obj s p = None) /\ (forall a, u_pc s a = UNone); lstep := unsafe_step |}.

(* ---- ExternalManifestCommitHandler, external_manifest.rs:95-358.  With [lossy] a
   put_if_not_exists may be applied and still report an error (the answer is lost). *)
Inductive epc (A : Type) :=
| ENone
| EW0 (v : N) (x : A) (s : scheme)              (* 322: about to write the staging manifest *)
| EW1 (v : N) (x : A) (s : scheme)              (* 327: about to put_if_not_exists *)
| EDel (v : N) (x : A) (s : scheme)             (* 333: about to delete the staging manifest *)
| EF1 (w : bool) (v : N) (p : path) (s : scheme) (* finalize_manifest 121: about to copy; w: by the committer *)
| EF2 (w : bool) (v : N) (p : path) (s : scheme) (* 131: about to put_if_exists *)
| EF3 (w : bool) (v : N) (p : path) (s : scheme) (* 136: about to delete the staging manifest *)
| ERet (r : ret)
| EMiss (v : N)                                  (* 237: no entry in the store; about to head the V2 path *)
| EMiss1 (v : N)                                 (* 245: about to test the V1 path *)
| EBoard (v : N) (p : path)                      (* 247: about to put_if_not_exists, best effort *)
| ERead (v : N) (p : path)                       (* resolved *)
| EDone.
Arguments ENone {A}. Arguments EW0 {A}. Arguments EW1 {A}. Arguments EDel {A}. Arguments EF1 {A}. Arguments EF2 {A}. Arguments EF3 {A}.
Arguments ERet {A}. Arguments EMiss {A}. Arguments EMiss1 {A}. Arguments EBoard {A}. Arguments ERead {A}. Arguments EDone {A}.
Record est (A : Type) := { e_obj : path -> option A; e_ext : N -> option path; e_pc : N -> epc A }.
Arguments e_obj {A}. Arguments e_ext {A}. Arguments e_pc {A}.
(* finalize_manifest returns the final path, or an error *)
Definition fin_ok {A} (w : bool) (v : N) (s : scheme) : epc A := if w then ERet ROk else ERead v (PFinal s v).
Definition fin_err {A} (w : bool) : epc A := if w then ERet RErr else EDone.
(* resolve_version 227-287 after the get *)
Definition resolved {A} (v : N) (r : option path) : epc A :=
  match r with
  | None => EMiss v
  | Some (PFinal s v') => ERead v (PFinal s v')
  | Some (PStage s v' a) => EF1 false v (PStage s v' a) s      (* detect_scheme_staging of the staging name *)
  end.
Inductive ext_step {A} (lossy : bool) : est A -> option (label A) -> est A -> Prop :=
| ex_begin : forall o e pc a v x s, pc a = ENone ->
    ext_step lossy {| e_obj := o; e_ext := e; e_pc := pc |} (Some (LBegin a v x)) {| e_obj := o; e_ext := e; e_pc := upN pc a (EW0 v x s) |}
| ex_write : forall o e pc a v x s, pc a = EW0 v x s ->
    ext_step lossy {| e_obj := o; e_ext := e; e_pc := pc |} None {| e_obj := upP o (PStage s v a) (Some x); e_ext := e; e_pc := upN pc a (EW1 v x s) |}
| ex_write_err : forall (b : bool) o e pc a v x s, pc a = EW0 v x s ->
    ext_step lossy {| e_obj := o; e_ext := e; e_pc := pc |} None
      {| e_obj := if b then upP o (PStage s v a) (Some x) else o; e_ext := e; e_pc := upN pc a (ERet RErr) |}
| ex_put : forall o e pc a v x s, pc a = EW1 v x s -> e v = None ->
    ext_step lossy {| e_obj := o; e_ext := e; e_pc := pc |} None
      {| e_obj := o; e_ext := upN e v (Some (PStage s v a)); e_pc := upN pc a (EF1 true v (PStage s v a) s) |}
| ex_put_err : forall o e pc a v x s, pc a = EW1 v x s ->      (* it exists, or any other error *)
    ext_step lossy {| e_obj := o; e_ext := e; e_pc := pc |} None {| e_obj := o; e_ext := e; e_pc := upN pc a (EDel v x s) |}
| ex_put_lost : forall o e pc a v x s, lossy = true -> pc a = EW1 v x s -> e v = None ->
    ext_step lossy {| e_obj := o; e_ext := e; e_pc := pc |} None
      {| e_obj := o; e_ext := upN e v (Some (PStage s v a)); e_pc := upN pc a (EDel v x s) |}
| ex_del : forall o e pc a v x s, pc a = EDel v x s ->
    ext_step lossy {| e_obj := o; e_ext := e; e_pc := pc |} None {| e_obj := upP o (PStage s v a) None; e_ext := e; e_pc := upN pc a (ERet RConflict) |}
| ex_del_err : forall (b : bool) o e pc a v x s, pc a = EDel v x s ->
    ext_step lossy {| e_obj := o; e_ext := e; e_pc := pc |} None
      {| e_obj := if b then upP o (PStage s v a) None else o; e_ext := e; e_pc := upN pc a (ERet RErr) |}
| ex_copy : forall o e pc a w v p s y, pc a = EF1 w v p s -> o p = Some y ->
    ext_step lossy {| e_obj := o; e_ext := e; e_pc := pc |} None {| e_obj := upP o (PFinal s v) (Some y); e_ext := e; e_pc := upN pc a (EF2 w v p s) |}
| ex_copy_missing : forall o e pc a w v p s, pc a = EF1 w v p s -> o p = None ->
    ext_step lossy {| e_obj := o; e_ext := e; e_pc := pc |} None {| e_obj := o; e_ext := e; e_pc := upN pc a (fin_ok w v s) |}
| ex_copy_err : forall o e pc a w v p s, pc a = EF1 w v p s ->
    ext_step lossy {| e_obj := o; e_ext := e; e_pc := pc |} None {| e_obj := o; e_ext := e; e_pc := upN pc a (fin_err w) |}
| ex_copy_lost : forall o e pc a w v p s y, pc a = EF1 w v p s -> o p = Some y ->
    ext_step lossy {| e_obj := o; e_ext := e; e_pc := pc |} None {| e_obj := upP o (PFinal s v) (Some y); e_ext := e; e_pc := upN pc a (fin_err w) |}
| ex_flip : forall o e pc a w v p s, pc a = EF2 w v p s -> e v <> None ->
    ext_step lossy {| e_obj := o; e_ext := e; e_pc := pc |} None
      {| e_obj := o; e_ext := upN e v (Some (PFinal s v)); e_pc := upN pc a (EF3 w v p s) |}
| ex_flip_err : forall (b : bool) o e pc a w v p s, pc a = EF2 w v p s -> (b = true -> e v <> None) ->
    ext_step lossy {| e_obj := o; e_ext := e; e_pc := pc |} None
      {| e_obj := o; e_ext := if b then upN e v (Some (PFinal s v)) else e; e_pc := upN pc a (fin_err w) |}
| ex_fdel : forall o e pc a w v p s, pc a = EF3 w v p s ->
    ext_step lossy {| e_obj := o; e_ext := e; e_pc := pc |} None {| e_obj := upP o p None; e_ext := e; e_pc := upN pc a (fin_ok w v s) |}
| ex_fdel_err : forall (b : bool) o e pc a w v p s, pc a = EF3 w v p s ->
    ext_step lossy {| e_obj := o; e_ext := e; e_pc := pc |} None {| e_obj := if b then upP o p None else o; e_ext := e; e_pc := upN pc a (fin_err w) |}
| ex_ret : forall o e pc a r, pc a = ERet r ->
    ext_step lossy {| e_obj := o; e_ext := e; e_pc := pc |} (Some (LRet a r)) {| e_obj := o; e_ext := e; e_pc := upN pc a EDone |}
| ex_crash : forall o e pc a, pc a <> ENone ->
    ext_step lossy {| e_obj := o; e_ext := e; e_pc := pc |} None {| e_obj := o; e_ext := e; e_pc := upN pc a EDone |}
(* readers *)
| ex_open : forall o e pc a v, pc a = ENone ->
    ext_step lossy {| e_obj := o; e_ext := e; e_pc := pc |} None {| e_obj := o; e_ext := e; e_pc := upN pc a (resolved v (e v)) |}
| ex_miss : forall o e pc a v, pc a = EMiss v ->
    ext_step lossy {| e_obj := o; e_ext := e; e_pc := pc |} None
      {| e_obj := o; e_ext := e; e_pc := upN pc a (match o (PFinal V2 v) with Some _ => EBoard v (PFinal V2 v) | None => EMiss1 v end) |}
| ex_miss1 : forall o e pc a v, pc a = EMiss1 v ->
    ext_step lossy {| e_obj := o; e_ext := e; e_pc := pc |} None
      {| e_obj := o; e_ext := e; e_pc := upN pc a (match o (PFinal V1 v) with Some _ => EBoard v (PFinal V1 v) | None => EDone end) |}
| ex_board : forall (b : bool) o e pc a v p, pc a = EBoard v p -> (b = true -> e v = None) ->
    ext_step lossy {| e_obj := o; e_ext := e; e_pc := pc |} None
      {| e_obj := o; e_ext := if b then upN e v (Some p) else e; e_pc := upN pc a (ERead v p) |}
| ex_read : forall o e pc a v p x, pc a = ERead v p -> o p = Some x ->
    ext_step lossy {| e_obj := o; e_ext := e; e_pc := pc |} (Some (LRead v x)) {| e_obj := o; e_ext := e; e_pc := upN pc a EDone |}
| ex_read_missing : forall o e pc a v p, pc a = ERead v p -> o p = None ->
    ext_step lossy {| e_obj := o; e_ext := e; e_pc := pc |} None {| e_obj := o; e_ext := e; e_pc := upN pc a EDone |}
(* get_latest_version: the highest version of the store; 203-220, 200 *)
| ex_latest : forall o e pc v, e v <> None -> (forall w, v < w -> e w = None) ->
    ext_step lossy {| e_obj := o; e_ext := e; e_pc := pc |} (Some (LLatest v)) {| e_obj := o; e_ext := e; e_pc := pc |}
| ex_latest_list : forall o e pc s v x, (forall w, e w = None) -> o (PFinal s v) = Some x -> (forall s' w, v < w -> o (PFinal s' w) = None) ->
    ext_step lossy {| e_obj := o; e_ext := e; e_pc := pc |} (Some (LLatest v)) {| e_obj := o; e_ext := e; e_pc := pc |}.
Definition ext_lts (A : Type) (lossy : bool) : lts (label A) :=
  {| lst := est A;
     linit := fun s => (forall p, e_obj s p = None) /\ (forall v, e_ext s v = None) /\ (forall a, e_pc s a = ENone);
     lstep := ext_step lossy |}.
