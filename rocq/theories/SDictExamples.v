(* Cases that meet the hypotheses of SDictProofs, and pages with too many distinct strings. *)
From Coq Require Import List Arith NArith Bool Lia.
From Verif Require Import Lib PageModel ListEncModel ListEncProofs SerdeModel FlatModel FlatProofs FlatPage SDictModel SDictProofs.
From Verif Require BinEncModel BinEncProofs.
Import ListNotations.
Local Open Scope nat_scope.

Definition exs : list (larr nat) :=
  [{| la_offsets := [0; 1; 1; 2; 4]; la_valid := Some [true; false; true; true]; la_values := [97; 97; 98; 99] |}; {| la_offsets := [1; 3; 3]; la_valid := None; la_values := [0; 98; 99] |}].
Example exs_rows : BinEncProofs.strings_of exs = [Some [97]; None; Some [97]; Some [98; 99]; Some [98; 99]; Some []].
Proof. reflexivity. Qed.
Example exs_ok : Forall array_ok exs /\ distinct (BinEncProofs.strings_of exs) = 3 /\ 3 <= limit true /\ BinEncProofs.strings_of exs <> [].
Proof. repeat split; try (vm_compute; lia); try discriminate. repeat constructor. Qed.
Example exs_page : dict_loop true (BinEncProofs.strings_of exs) [] 1%N = Some ([1; 0; 1; 2; 2; 3]%N, [[97]; [98; 99]; []]).
Proof. vm_compute. reflexivity. Qed.
Example exs_read : read_sdict true exs [(0, 3); (2, 6)] 2 4 = Some [Some [97]; Some [97]; Some [98; 99]; Some [98; 99]].
Proof. vm_compute. reflexivity. Qed.
(* an exact count as the estimate, four as the threshold *)
Example exs_chosen : check_dict (fun l => length (nodup (list_eq_dec Nat.eq_dec) l)) 4 (BinEncProofs.strings_of exs) = true /\ check_dict (fun l => length (nodup (list_eq_dec Nat.eq_dec) l)) 3 (BinEncProofs.strings_of exs) = false.
Proof. split; vm_compute; reflexivity. Qed.

(* n different strings of one byte *)
Definition singles (n : nat) : larr nat := {| la_offsets := seq 0 (S n); la_valid := None; la_values := seq 0 n |}.
Lemma singles_ok : forall n, array_ok (singles n).
Proof.
  intros n. unfold array_ok, singles. cbn [la_offsets la_valid la_values seq]. assert (Q : forall m k, sorted_from k (seq (S k) m)). { induction m as [|m IH]; intros k; [exact Logic.I|]. cbn [seq sorted_from]. split; [lia|apply IH]. }
  split; [apply Q|]. split; [|exact Logic.I]. change (0 :: seq 1 n) with (seq 0 (S n)). rewrite seq_S, last_last, seq_length. lia.
Qed.
(* without overflow checks, of 256 strings the last reads back as null *)
Theorem sdict_wraps_refuted : exists arrs, Forall array_ok arrs /\ distinct (BinEncProofs.strings_of arrs) = 256 /\ nth 255 (BinEncProofs.strings_of arrs) None = Some [255] /\ read_sdict false arrs [(255, 256)] 0 1 = Some [None].
Proof. exists [singles 256]. split; [constructor; [apply singles_ok|constructor]|]. split; [vm_compute; reflexivity|]. split; vm_compute; reflexivity. Qed.
(* and of 257 strings the last reads back as the first *)
Theorem sdict_alias_refuted : exists arrs, Forall array_ok arrs /\ nth 256 (BinEncProofs.strings_of arrs) None = Some [256] /\ read_sdict false arrs [(256, 257)] 0 1 = Some [Some [0]].
Proof. exists [singles 257]. split; [constructor; [apply singles_ok|constructor]|]. split; vm_compute; reflexivity. Qed.
(* with overflow checks, 255 strings are a panic *)
Theorem sdict_overflow_refuted : exists arrs, Forall array_ok arrs /\ distinct (BinEncProofs.strings_of arrs) = 255 /\ sdict_encode true (BinEncProofs.strings_of arrs) = None.
Proof. exists [singles 255]. split; [constructor; [apply singles_ok|constructor]|]. split; vm_compute; reflexivity. Qed.
(* the environment variable that sets the threshold is not bounded: with 300 such a page is chosen by an estimate that
   is exact for these strings *)
Theorem sdict_threshold_refuted : exists arrs th, Forall array_ok arrs /\ check_dict (fun l => Nat.min 256 (length l)) th (BinEncProofs.strings_of arrs) = true /\
  read_sdict false arrs [(255, 256)] 0 1 = Some [None] /\ nth 255 (BinEncProofs.strings_of arrs) None = Some [255].
Proof.
  exists [singles 256; singles 256], 300. split; [constructor; [apply singles_ok|constructor; [apply singles_ok|constructor]]|].
  split; [vm_compute; reflexivity|]. split; vm_compute; reflexivity.
Qed.
