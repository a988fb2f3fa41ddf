(* Shared streams: cases, and what is false (C136). *)
From Coq Require Import List Arith Bool Lia.
From Verif Require Import ShareModel ShareProofs ShareLive ShareWhole.
Import ListNotations.
Local Open Scope nat_scope.

Fixpoint exec {T} (x : @st T) (ls : list label) : option st :=
  match ls with [] => Some x | l :: ls' => match step x l with Some (Some y) => exec y ls' | _ => None end end.
Lemma exec_run_par {T} drop (items : list T) cap ls : forallb (fun l => match l with LDrop _ => drop | _ => true end) ls = true -> forall pre x y, run drop true items cap pre x -> exec x ls = Some y -> run drop true items cap (pre ++ ls) y.
Proof.
  induction ls as [|l ls IH]; intros Hd pre x y R P; cbn in P; [injection P as <-; rewrite app_nil_r; exact R|]. cbn in Hd. apply andb_true_iff in Hd. destruct Hd as [Hd1 Hd2].
  destruct (step x l) as [[z|]|] eqn:E; try discriminate. change (l :: ls) with ([l] ++ ls). rewrite app_assoc. eapply IH; [exact Hd2| |exact P].
  econstructor; [exact R| |exact E]. destruct l; cbn; auto.
Qed.

(* two threads, a capacity of two: the left half is being polled when the right one begins, the stream inside is pending once, and both get everything *)
Example share_run : exists x ls, run false true [1; 2] (Some 2) ls x /\ (forall s, ph x s = Fin /\ out x s = [1; 2]) /\ In (LFinish Left true) ls.
Proof.
  set (ls := [LPoll Left; LPoll Right; LFinish Left true; LInner; LPoll Left; LFinish Left false; LPoll Right; LPoll Right; LFinish Right false; LPoll Left; LPoll Left; LFinish Left false; LPoll Right]).
  pose proof (exec_run_par false [1; 2] (Some 2) ls eq_refl [] (start [1; 2] (Some 2))) as K.
  destruct (exec (start [1; 2] (Some 2)) ls) as [x|] eqn:E; [|vm_compute in E; discriminate].
  exists x, ls. split; [apply (K x); [constructor|reflexivity]|]. vm_compute in E. injection E as <-. split; [intros []; split; reflexivity|]. cbn. tauto.
Qed.
(* the left half sleeps at the semaphore, ahead by two; that is the case the theorem about lost wakeups speaks of *)
Example share_sleep : exists x ls, run false true [1; 2; 3] (Some 2) ls x /\ ph x Left = Wait /\ out x Left = [1; 2] /\ out x Right = [].
Proof.
  set (ls := [LPoll Left; LFinish Left false; LPoll Left; LFinish Left false; LPoll Left]).
  pose proof (exec_run_par false [1; 2; 3] (Some 2) ls eq_refl [] (start [1; 2; 3] (Some 2))) as K.
  destruct (exec (start [1; 2; 3] (Some 2)) ls) as [x|] eqn:E; [|vm_compute in E; discriminate].
  exists x, ls. split; [apply (K x); [constructor|reflexivity]|]. vm_compute in E. injection E as <-. auto.
Qed.
(* one task polls both halves and the capacity is one, as when blobs are written *)
Example share_one : exists x ls, run false false [1; 2] (Some 1) ls x /\ (forall s, ph x s = Fin /\ out x s = [1; 2]).
Proof.
  eexists. exists ((((((((((([] ++ [LPoll Left]) ++ [LFinish Left false]) ++ [LPoll Left]) ++ [LPoll Right]) ++ [LPoll Right]) ++ [LFinish Right false]) ++ [LPoll Left]) ++ [LPoll Left]) ++ [LFinish Left false]) ++ [LPoll Right])). split.
  - repeat (eapply run_step; [ | |]). apply run_start. all: try (cbn; auto; fail). all: try reflexivity. all: right; intros []; vm_compute; discriminate.
  - intros []; vm_compute; auto.
Qed.

(* nothing more happens, unless a task is polled though nobody woke it *)
Definition stuck {T} (x : @st T) : Prop := forall l, match l with LSpurious _ | LDrop _ => True | _ => step x l = None end.
Ltac stuckt := intros [[]|[] []| |[]|[]]; try exact I; reflexivity.

(* false: two threads may poll the halves of a stream shared with a capacity of one. The left half holds the permit, the right one waits
   for it at the semaphore, the left one keeps the permit because it got an item, and wakes nobody. An item is there for the right half,
   both sleep, and nobody will wake them. *)
Theorem share_one_threads_refuted : exists (x : @st nat) ls, run false true [1; 2] (Some 1) ls x /\ stuck x /\ ph x Left = Wait /\ ph x Right = Wait /\ out x Left = [1] /\ out x Right = [] /\ buf x = [1].
Proof.
  set (ls := [LPoll Left; LPoll Right; LFinish Left false; LPoll Left]).
  pose proof (exec_run_par false [1; 2] (Some 1) ls eq_refl [] (start [1; 2] (Some 1))) as K.
  destruct (exec (start [1; 2] (Some 1)) ls) as [x|] eqn:E; [|vm_compute in E; discriminate].
  exists x, ls. split; [apply (K x); [constructor|reflexivity]|]. vm_compute in E. injection E as <-. split; [stuckt|]. repeat split.
Qed.
(* false: a capacity of zero works. Nothing is ever returned, even of an empty stream *)
Theorem share_zero_refuted : exists (x : @st nat) ls, run false false [] (Some 0) ls x /\ stuck x /\ forall s, ph x s = Wait.
Proof.
  eexists. exists (([] ++ [LPoll Left]) ++ [LPoll Right]). split; [|split].
  - repeat (eapply run_step; [ | |]). apply run_start. all: try reflexivity. all: right; intros []; vm_compute; discriminate.
  - stuckt.
  - intros []; reflexivity.
Qed.
(* false: a half can be dropped. The half that has polled the stream inside is dropped, and the other one sleeps forever, though the
   capacity has no bound *)
Theorem share_drop_refuted : exists (x : @st nat) ls, run true false [1] None ls x /\ stuck x /\ ph x Left = Gone /\ ph x Right = Wait /\ out x Right = [].
Proof.
  eexists. exists ((((([] ++ [LPoll Left]) ++ [LFinish Left true]) ++ [LDrop Left]) ++ [LPoll Right]) ++ [LInner]). split; [|split].
  - repeat (eapply run_step; [ | |]). apply run_start. all: try (cbn; auto; fail). all: try reflexivity. all: right; intros []; vm_compute; discriminate.
  - stuckt.
  - repeat split.
Qed.
(* false: when writing the fragments fails, writing the blobs ends. The half of the failed write is dropped; the other gets one more item
   and then waits for room in the buffer (write.rs 412: join! waits for both) *)
Theorem share_drop_full_refuted : exists (x : @st nat) ls, run true false [1; 2; 3] (Some 1) ls x /\ stuck x /\ ph x Left = Gone /\ ph x Right = Wait /\ out x Right = [1].
Proof.
  eexists. exists (((([] ++ [LDrop Left]) ++ [LPoll Right]) ++ [LFinish Right false]) ++ [LPoll Right]). split; [|split].
  - repeat (eapply run_step; [ | |]). apply run_start. all: try (cbn; auto; fail). all: try reflexivity. all: right; intros []; vm_compute; discriminate.
  - stuckt.
  - repeat split.
Qed.
