(* Concrete cases and counterexamples for ObjectWriter (C119, C120). *)
From Coq Require Import List Arith Lia Bool.
From Verif Require Import Lib UploadModel UploadProofs.
Import ListNotations.

(* parts of three bytes, two at a time, one reset retried *)
Definition small : config := Build_config 3 3 2 1 false true.
(* five writes into parts of three bytes; the second part finishes before the first *)
Definition calls1 : list (call (B := nat)) :=
  [Write [1; 2] []; Write [3; 4; 5] [Ok 0]; Write [4; 5; 6; 7] []; Write [7] [Ok 1]; Flush [Ok 1; Ok 0]; Write [8] []].
Example ex_written :
  exists w w', writes small calls1 (new small) [] = Some ([1; 2; 3; 4; 5; 6; 7; 8], w) /\
    shutdowns small [[]; [Ok 2; Ok 0]; [NotReady]; [Ok 0]] w = Some (true, w') /\
    w_object w' = Some [1; 2; 3; 4; 5; 6; 7; 8] /\ tell w' = 8 /\ w_resets w' = 0.
Proof. eexists. eexists. split; [vm_compute; reflexivity|]. split; [vm_compute; reflexivity|]. vm_compute. auto. Qed.
Example ex_small_file :
  exists w w', writes small [Write [1; 2] []] (new small) [] = Some ([1; 2], w) /\ shutdowns small [[NotReady]; [Ok 0]] w = Some (true, w') /\ w_object w' = Some [1; 2].
Proof. eexists. eexists. split; [vm_compute; reflexivity|]. split; vm_compute; reflexivity. Qed.
Example ex_parts :
  exists w w', writes small calls1 (new small) [] = Some ([1; 2; 3; 4; 5; 6; 7; 8], w) /\ shutdowns small [[]] w = Some (false, w') /\
    existsb lost (parts_of w') = false /\ map (@p_data nat) (parts_of w') = [[1; 2; 3]; [4; 5; 6]; [7; 8]].
Proof. eexists. eexists. split; [vm_compute; reflexivity|]. split; [vm_compute; reflexivity|]. vm_compute. auto. Qed.
Example ex_flush_pending : exists w' w'', writes small [Write [1; 2; 3] []] (new small) [] = Some ([1; 2; 3], w') /\ poll_flush small [] w' = (Pending true, w'').
Proof. eexists. eexists. split; vm_compute; reflexivity. Qed.
Example ex_write_pending_empty : exists w', poll_write small [] (new small) ([] : list nat) = (Pending false, w').
Proof. eexists. vm_compute. reflexivity. Qed.

(* LANCE_UPLOAD_CONCURRENCY=0: the part after the first is never sent, and shutdown
   completes the upload without it *)
Definition no_tasks : config := Build_config 3 3 0 1 false true.
Theorem truncated_refuted :
  ~ (forall cfg (calls : list (call (B := nat))) acc w polls w', strict cfg = true ->
      writes cfg calls (new cfg) [] = Some (acc, w) -> shutdowns cfg polls w = Some (true, w') -> w_object w' = Some acc).
Proof.
  intros H. specialize (H no_tasks [Write [1; 2; 3] [Ok 0]; Write [4] []] [1; 2; 3; 4]).
  specialize (H _ [[Ok 0; Ok 0]] _ eq_refl eq_refl eq_refl). vm_compute in H. discriminate H.
Qed.
(* a store that joins the parts that were uploaded: the part that was sent again is put
   after the parts that follow it *)
Definition joins : config := Build_config 3 3 2 1 false false.
Theorem retried_refuted :
  ~ (forall cfg (calls : list (call (B := nat))) acc w polls w', 1 <= parallelism cfg ->
      writes cfg calls (new cfg) [] = Some (acc, w) -> shutdowns cfg polls w = Some (true, w') -> w_object w' = Some acc).
Proof.
  intros H. specialize (H joins [Write [1; 2; 3] [Ok 0]; Write [4; 5; 6] []; Flush [Err 0 Reset; Ok 2]] [1; 2; 3; 4; 5; 6]).
  specialize (H _ [[Ok 1; Ok 0]] _ ltac:(cbn; lia) eq_refl eq_refl). vm_compute in H. discriminate H.
Qed.
(* with the stores that check the parts: the retry is allowed and the upload of the
   part succeeds, but the file cannot be finished *)
Theorem retry_useless_refuted :
  exists calls acc w w', writes small (calls : list (call (B := nat))) (new small) [] = Some (acc, w) /\ w_resets w = 1 /\ w_resets w <= max_resets small /\
    poll_flush small [] w = (Ready tt, w') /\ fst (poll_shutdown small [Ok 0] w') = Fail.
Proof.
  exists [Write [1; 2; 3] [Ok 0]; Flush [Err 0 Reset; Ok 1]]. eexists. eexists. eexists.
  split; [vm_compute; reflexivity|]. vm_compute. auto.
Qed.
(* a write of a non-empty buffer that is pending while no future is left to wake it: the
   buffer was full and both uploads end between the two polls *)
Theorem lost_wakeup_refuted :
  ~ (forall cfg (calls : list (call (B := nat))) acc w ev buf b w', 1 <= parallelism cfg -> 1 <= initial cfg ->
      writes cfg calls (new cfg) [] = Some (acc, w) -> poll_write cfg ev w buf = (Pending b, w') -> buf <> [] -> b = true).
Proof.
  intros H. specialize (H small [Write [1; 2; 3] [Ok 0]; Write [4; 5; 6] []; Write [7; 8; 9] []] [1; 2; 3; 4; 5; 6; 7; 8; 9]).
  specialize (H _ [NotReady; Ok 0; Ok 1] [10] false _ ltac:(cbn; lia) ltac:(cbn; lia) eq_refl eq_refl ltac:(discriminate)). discriminate H.
Qed.
