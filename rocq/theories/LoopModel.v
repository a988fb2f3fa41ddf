(* The commit loop: rust/lance/src/io/commit.rs:123-246 (check_transaction,
   commit_new_dataset) and 698-878 (commit_transaction), as a program run by any
   number of writers over a commit handler (a labelled transition system over the
   labels of ProtoModel).

   The content of a version is a history entry: its manifest with indices and the
   transaction named by its transaction file (a file under a fresh uuid, written
   before the manifest is committed).  Simplifications: blob datasets, detached
   commits, manifest migrations for old writers and back-off are not modelled; the
   transactions of the first check are looked at one by one in any order, where the
   code collects all of them (in any order) first; a process's cache of transactions
   by version is not modelled (versions are immutable, C30). *)
From Coq Require Import List Arith NArith ZArith Bool.
From Verif Require Import Lib AMap TxnModel ProtoModel.
Import ListNotations.
Local Open Scope N_scope.

Inductive wpc :=
| WIdle
| WNew (x : entry)                                         (* commit_new_dataset 170: about to write version 1 *)
| WNewWait (x : entry) (a : N)
| WTxn (t : txn) (c : wconfig) (f : N)                     (* 733: about to resolve the latest version *)
| WLatest (t : txn) (c : wconfig) (f : N) (first : bool) (k : nat) (lo L : N)   (* 737: about to read it *)
| WCheck (t : txn) (c : wconfig) (f : N) (first : bool) (k : nat) (L : N) (e : entry) (todo : list N)
| WBuild (t : txn) (c : wconfig) (f : N) (k : nat) (L : N) (e : entry)
| WReady (t : txn) (c : wconfig) (f : N) (k : nat) (L : N) (x : entry)          (* 813: about to commit *)
| WWait (t : txn) (c : wconfig) (f : N) (k : nat) (L : N) (a : N)
| WRetry (t : txn) (c : wconfig) (f : N) (k : nat) (tgt : N)                    (* 850: about to resolve the latest version again *)
| WDone (t : txn) (v : N)
| WFail.

(* versions lo..=L *)
Definition versions (lo L : N) : list N := nrange lo (N.to_nat (L + 1 - lo)).
(* 767-806: the manifest for target version L + 1; [old] is the restored version *)
Definition loop_build (t : txn) (c : wconfig) (f : N) (L : N) (e : entry) (old : option entry) : bres entry :=
  bbind (match t_op t, old with
         | Restore _, Some o => BOk (set_version (e_man o) (L + 1) f, e_idx o)
         | Restore _, None => BErr
         | _, _ => bbind (build_manifest t (Some (e_man e)) (e_idx e) f c) (fun '(m, ix) =>
                   BOk ({| m_version := L + 1; m_schema := m_schema m; m_fragments := m_fragments m; m_rflags := m_rflags m; m_wflags := m_wflags m;
                           m_max := m_max m; m_next_row := m_next_row m; m_config := m_config m; m_tag := m_tag m; m_txn := m_txn m |}, ix))
         end) (fun '(m, ix) => bbind (finish c m) (fun m' =>
  BOk {| e_txn := t; e_cfg := c; e_man := m'; e_idx := ix |})).
(* do_commit_new_dataset 170-190 *)
Definition new_build (t : txn) (c : wconfig) (f : N) : bres entry :=
  bbind (build_manifest t None [] f c) (fun '(m, ix) => bbind (finish c m) (fun m' =>
  BOk {| e_txn := t; e_cfg := c; e_man := m'; e_idx := ix |})).

(* The effect of one label on a writer.  [seen]: a transaction as read back from its
   file; [skip]: the code's behaviour when the first check meets a removed version
   (without it, such a writer gets no further) *)
Inductive wstep (skip : bool) (seen : txn -> txn) : wpc -> option (label entry) -> wpc -> Prop :=
| w_new : forall t c f x, new_build t c f = BOk x -> wstep skip seen WIdle None (WNew x)
| w_new_begin : forall x a, wstep skip seen (WNew x) (Some (LBegin a 1 x)) (WNewWait x a)
| w_new_ok : forall x a, wstep skip seen (WNewWait x a) (Some (LRet a ROk)) (WDone (e_txn x) 1)
| w_new_err : forall x a r, r <> ROk -> wstep skip seen (WNewWait x a) (Some (LRet a r)) WFail
(* a transaction prepared from version r *)
| w_start : forall t c f x, wstep skip seen WIdle (Some (LRead (t_read t) x)) (WTxn t c f)
(* 738-740 *)
| w_latest : forall t c f k L, wstep skip seen (WTxn t c f) (Some (LLatest L)) (WLatest t c f true k (t_read t + 1) L)
| w_latest_read : forall t c f first k lo L e, wstep skip seen (WLatest t c f first k lo L) (Some (LRead L e)) (WCheck t c f first k L e (versions lo L))
(* 741-770, 854-868 *)
| w_check_ok : forall t c f first k L e todo u y, In u todo -> conflicts_with (t_op t) (t_op (seen (e_txn y))) = false ->
    wstep skip seen (WCheck t c f first k L e todo) (Some (LRead u y)) (WCheck t c f first k L e (filter (fun w => negb (w =? u)) todo))
| w_check_conflict : forall t c f first k L e todo u y, In u todo -> conflicts_with (t_op t) (t_op (seen (e_txn y))) = true ->
    wstep skip seen (WCheck t c f first k L e todo) (Some (LRead u y)) WFail
(* 747-752: the first check takes transactions while they are found; the retries fail *)
| w_check_gone : forall t c f k L e todo u, skip = true -> In u todo -> wstep skip seen (WCheck t c f true k L e todo) (Some (LGone u)) (WCheck t c f true k L e [])
| w_check_gone_retry : forall t c f k L e todo u, In u todo -> wstep skip seen (WCheck t c f false k L e todo) (Some (LGone u)) WFail
| w_checked : forall t c f first k L e, wstep skip seen (WCheck t c f first k L e []) None (WBuild t c f k L e)
(* 772-806 *)
| w_build : forall t c f k L e x, (forall v, t_op t <> Restore v) -> loop_build t c f L e None = BOk x ->
    wstep skip seen (WBuild t c f (S k) L e) None (WReady t c f k L x)
| w_restore : forall t c f k L e v old x, t_op t = Restore v -> loop_build t c f L e (Some old) = BOk x ->
    wstep skip seen (WBuild t c f (S k) L e) (Some (LRead v old)) (WReady t c f k L x)
(* 809-822 *)
| w_begin : forall t c f k L x a, wstep skip seen (WReady t c f k L x) (Some (LBegin a (L + 1) x)) (WWait t c f k L a)
| w_ok : forall t c f k L a, wstep skip seen (WWait t c f k L a) (Some (LRet a ROk)) (WDone t (L + 1))
| w_conflict : forall t c f k L a, wstep skip seen (WWait t c f k L a) (Some (LRet a RConflict)) (WRetry t c f k (L + 1))
| w_err : forall t c f k L a, wstep skip seen (WWait t c f k L a) (Some (LRet a RErr)) WFail
| w_retry : forall t c f k tgt L, wstep skip seen (WRetry t c f k tgt) (Some (LLatest L)) (WLatest t c f false k tgt L)
(* errors, panics, exhausted retries (872) and crashes *)
| w_fail : forall p, wstep skip seen p None WFail.

(* writers over a commit handler; readers and the returns of calls whose caller is
   gone need no writer *)
Definition begins (l : label entry) : bool := match l with LBegin _ _ _ => true | _ => false end.
Inductive loop_step (skip : bool) (seen : txn -> txn) (H : lts (label entry)) : lst H * (N -> wpc) -> option (label entry) -> lst H * (N -> wpc) -> Prop :=
| lp_store : forall s s' w, lstep H s None s' -> loop_step skip seen H (s, w) None (s', w)
| lp_env : forall s s' w l, lstep H s (Some l) s' -> begins l = false -> loop_step skip seen H (s, w) (Some l) (s', w)
| lp_tau : forall s w i p, wstep skip seen (w i) None p -> loop_step skip seen H (s, w) None (s, upN w i p)
| lp_sync : forall s s' w i p l, lstep H s (Some l) s' -> wstep skip seen (w i) (Some l) p -> loop_step skip seen H (s, w) (Some l) (s', upN w i p).
Definition loop_lts (skip : bool) (seen : txn -> txn) (H : lts (label entry)) : lts (label entry) :=
  {| lst := lst H * (N -> wpc); linit := fun s => linit H (fst s) /\ (forall i, snd s i = WIdle); lstep := loop_step skip seen H |}.

(* a store whose old versions are removed by cleanup (rust/lance/src/dataset/cleanup.rs);
   the latest version stays.  With [tomb] the number of a removed version is never free
   again (an external store that keeps its rows); otherwise it is free, as for a store
   that only knows which objects exist. *)
From Verif Require Import ProtoSpec.
Record cst := { c_reg : ast entry; c_gone : N -> bool }.
Inductive clean_step (tomb : bool) : cst -> option (label entry) -> cst -> Prop :=
| cl_reg : forall r r' l g, abs_step r l r' -> (tomb = true -> forall v, g v = true -> a_vers r' v = None) ->
    clean_step tomb {| c_reg := r; c_gone := g |} l {| c_reg := r'; c_gone := g |}
| cl_remove : forall m st g v w x, m v = Some x -> v < w -> m w <> None ->
    clean_step tomb {| c_reg := {| a_vers := m; a_st := st |}; c_gone := g |} None
                    {| c_reg := {| a_vers := upN m v None; a_st := st |}; c_gone := upN g v true |}
| cl_gone : forall r g v, g v = true -> a_vers r v = None ->
    clean_step tomb {| c_reg := r; c_gone := g |} (Some (LGone v)) {| c_reg := r; c_gone := g |}.
Definition clean_lts (tomb : bool) : lts (label entry) :=
  {| lst := cst; linit := fun s => linit (abs_lts entry) (c_reg s) /\ (forall v, c_gone s v = false); lstep := clean_step tomb |}.
