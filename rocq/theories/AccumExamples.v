(* Concrete columns meeting the hypotheses of AccumProofs. *)
From Coq Require Import String List Arith NArith Bool Lia.
From Verif Require Import Lib PageModel PageProofs ListEncModel ListEncProofs ListEncRead AccumModel AccumProofs.
Import ListNotations.
Local Open Scope nat_scope.

Lemma words_lawful : lawful words (fun x => x).
Proof. repeat split; intros; reflexivity. Qed.
(* two arrays share a page, the third is cut in two by the size of pages *)
Definition col : list (list N * N) := [([1; 2; 3], 3); ([4], 1); ([5; 6; 7; 8], 4)]%N.
Example ex_col : column20 words 200%N false 20%N empty_queue 0%N col = Some [[[1; 2; 3]; [4]]; [[5; 6]]; [[7; 8]]]%N.
Proof. vm_compute. reflexivity. Qed.
Example ex_col_read : read_column (map (page_rows (fun x => x)) [[[1; 2; 3]; [4]]; [[5; 6]]; [[7; 8]]]%N) [(2, 5); (6, 8)] = Some [3; 4; 5; 7; 8]%N.
Proof. vm_compute. reflexivity. Qed.
Example ex_rows : ascending [(2, 5); (6, 8)] (length (flat_map (fun p : list N * N => fst p) col)).
Proof. vm_compute. repeat split; lia. Qed.
Example ex_even : Forall (fun p : list N * N => cuts_evenly words (fun x => x) 20%N (fst p)) col.
Proof. repeat apply Forall_cons; try apply Forall_nil; (split; [discriminate|]); split; unfold even_cut; vm_compute; lia. Qed.
(* format 2.1: a null row and its definition levels stay together *)
Example ex_col21 : column21 words 200%N false empty_queue [] 0%N [([1; 2; 3], "a"%string, 3); ([4], "b"%string, 2); ([5], "c"%string, 1)]%N = [{| p_arrays := [[1; 2; 3]; [4]]; p_repdefs := ["a"%string; "b"%string]; p_row := 0; p_rows := 5 |}; {| p_arrays := [[5]]; p_repdefs := ["c"%string]; p_row := 5; p_rows := 1 |}]%N.
Proof. vm_compute. reflexivity. Qed.
(* lists: offsets and validities are queued together *)
Definition parts : ops part := {| o_len := fun p => match p with POffsets l => length l | PValidity v => length v end; o_mem := fun _ => 40%N; o_buf := fun _ => 0%N; o_copy := fun p => p; o_slice := fun p _ _ => p |}.
Definition a1 : larr N := {| la_offsets := [0; 2; 2; 3]; la_valid := Some [true; false; true]; la_values := [1; 2; 3]%N |}.
Definition a2 : larr N := {| la_offsets := [1; 3]; la_valid := None; la_values := [9; 4; 5]%N |}.
Example ex_lists : exists os, column_lists20 parts words 100%N false 1000%N empty_queue empty_queue 0%N [(a1, 3); (a2, 1); (a1, 3)]%N = Some (os, [[[1; 2; 3]]; [[4; 5]]; [[1; 2; 3]]]%N) /\ length os = 2 /\
  read_lists os (read_column [[1; 2; 3]; [4; 5]; [1; 2; 3]]%N) [(0, 4)] = Some [Some [1; 2]; None; Some [3]; Some [4; 5]]%N.
Proof. eexists. split; [vm_compute; reflexivity|]. split; vm_compute; reflexivity. Qed.
Example ex_ok : Forall (fun p : larr N * N => array_ok (fst p)) [(a1, 3); (a2, 1); (a1, 3)]%N.
Proof. repeat constructor; cbn; try lia; try (intros; discriminate). Qed.
(* the queue of the column above after its second array *)
Example ex_held : held words 300%N false [([1; 2; 3], 0, 3); ([4], 3, 1)]%N = {| q_arrays := [[1; 2; 3]; [4]]; q_bytes := 224; q_row := 0; q_rows := 4 |}%N.
Proof. vm_compute. reflexivity. Qed.
