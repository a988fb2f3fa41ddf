(* Concrete cases for MFileProofs: a file with a section of indices and a manifest, read with a prefetch and blocks that are shorter
   than they are. *)
From Coq Require Import List ZArith Bool Lia.
From Verif Require Import MFileModel MFileProofs.
Import ListNotations.
Local Open Scope nat_scope.

Definition ix0 : list Z := [9; 8; 7; 6; 5]%Z.
Definition man0 (s : option nat) : list Z := match s with Some p => [1; 2; 3; Z.of_nat p]%Z | None => [1; 2; 3]%Z end.
Definition f0 : list Z := write_file [100; 101]%Z (Some ix0) man0.
Example file0 : f0 = ([100; 101] ++ [5; 0; 0; 0; 9; 8; 7; 6; 5] ++ [4; 0; 0; 0; 1; 2; 3; 2] ++ [11; 0; 0; 0; 0; 0; 0; 0] ++ [0; 0; 2; 0] ++ [76; 65; 78; 67])%Z.
Proof. reflexivity. Qed.
(* the prefetch has part of the manifest only; the block has part of the section only *)
Example read0 : read_manifest 16 f0 = Some [1; 2; 3; 2]%Z /\ read_indices 4 f0 (Some 2) = Some (Some ix0).
Proof. split; reflexivity. Qed.
Example roundtrip0 : exists section, read_manifest 16 f0 = Some (man0 section) /\ read_indices 4 f0 section = Some (Some ix0).
Proof.
  apply (roundtrip 16 4 [100; 101]%Z (Some ix0) man0); try lia; try reflexivity.
  - intros i E. injection E as <-. reflexivity.
  - intros [s|]; reflexivity.
Qed.
(* a file cut short, or with something behind it, is an error *)
Example cut0 : read_manifest 16 (firstn 30 f0) = None /\ read_manifest 16 (f0 ++ [0]%Z) = None.
Proof. split; reflexivity. Qed.
Example sound0 : exists w b0 b1 b2 b3 p0 p1 p2 p3 p4 p5 p6 p7 v,
    f0 = w ++ [b0; b1; b2; b3] ++ [1; 2; 3; 2]%Z ++ [p0; p1; p2; p3; p4; p5; p6; p7] ++ v ++ [76; 65; 78; 67]%Z /\ length v = 4 /\
    (Z.of_nat (length [1; 2; 3; 2]%Z) = b0 + 2 ^ 8 * b1 + 2 ^ 16 * b2 + 2 ^ 24 * b3)%Z /\
    (Z.of_nat (length w) = p0 + 2 ^ 8 * p1 + 2 ^ 16 * p2 + 2 ^ 24 * p3 + 2 ^ 32 * p4 + 2 ^ 40 * p5 + 2 ^ 48 * p6 + 2 ^ 56 * p7)%Z.
Proof. apply (sound 16); [lia|rewrite file0; repeat constructor; lia|reflexivity]. Qed.
(* a manifest that is too long: its hypotheses can be met *)
Example too_long0 : read_manifest 16 (write_file [] None (fun _ => repeat 7%Z (Z.to_nat (2 ^ 32)))) = None.
Proof.
  assert (L : Z.of_nat (length (repeat 7%Z (Z.to_nat (2 ^ 32)))) = (2 ^ 32)%Z) by (rewrite repeat_length; apply Z2Nat.id; lia).
  apply too_long; [lia| |].
  - unfold write_file, write_message, write_magics. rewrite !app_length, !le_length. cbn [length magic]. lia.
  - intros _. rewrite L. lia.
Qed.
