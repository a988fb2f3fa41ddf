(* Property C141: lists of format 1, to any depth. *)
From Coq Require Import List Arith NArith ZArith Bool Permutation Sorted.
From Verif Require Import OneListModel OneListProofs.
Import ListNotations.
Local Open Scope nat_scope.

(* if slices of the items are slices and their rows are read as written, so are those of lists of them, whatever their offsets begin with; and lists may be taken repeatedly even if their items may not *)
Theorem C141_lists : forall rep c wf, codec_ok rep c wf -> codec_ok True (lists c) (list_wf c wf).
Proof. exact @lists_ok. Qed.
Print Assumptions C141_lists.

(* so are lists of lists, to any depth *)
Theorem C141_nested : forall n rep c wf, codec_ok rep c wf -> codec_ok (rep \/ n <> 0) (nested n c) (nested_wf n c wf).
Proof. exact @nested_ok. Qed.
Print Assumptions C141_nested.
