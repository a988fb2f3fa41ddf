(* Property C143: the file of a manifest, with its section of indices and its footer. *)
From Coq Require Import List Arith NArith ZArith Bool Permutation Sorted.
From Verif Require Import MFileModel MFileProofs MFileExamples.
Import ListNotations.
Local Open Scope nat_scope.

(* the manifest and the indices that were written are read, whatever is before them, and whatever the prefetch and the size of blocks *)
Theorem C143_roundtrip : forall prefetch block w indices manifest, 16 <= prefetch -> 4 <= block ->
  (Z.of_nat (length (write_file w indices manifest)) < 2 ^ 63)%Z ->
  (forall i, indices = Some i -> Z.of_nat (length i) < 2 ^ 32)%Z -> (forall s, Z.of_nat (length (manifest s)) < 2 ^ 32)%Z ->
  exists section, read_manifest prefetch (write_file w indices manifest) = Some (manifest section) /\
    read_indices block (write_file w indices manifest) section = Some indices.
Proof. exact @roundtrip. Qed.
Print Assumptions C143_roundtrip.

(* a manifest whose length does not fit in 32 bits is an error, not other data *)
Theorem C143_too_long : forall prefetch w indices manifest, 16 <= prefetch ->
  (Z.of_nat (length (write_file w indices manifest)) < 2 ^ 63)%Z -> (forall s, 2 ^ 32 <= Z.of_nat (length (manifest s)))%Z ->
  read_manifest prefetch (write_file w indices manifest) = None.
Proof. exact @too_long. Qed.
Print Assumptions C143_too_long.

(* a file that can be read has the footer, and the message where the footer says, with its length, up to the footer *)
Theorem C143_sound : forall prefetch f m, 16 <= prefetch -> Forall (fun b => 0 <= b < 256)%Z f -> read_manifest prefetch f = Some m ->
  exists w b0 b1 b2 b3 p0 p1 p2 p3 p4 p5 p6 p7 v,
    f = w ++ [b0; b1; b2; b3] ++ m ++ [p0; p1; p2; p3; p4; p5; p6; p7] ++ v ++ [76; 65; 78; 67]%Z /\ length v = 4 /\
    (Z.of_nat (length m) = b0 + 2 ^ 8 * b1 + 2 ^ 16 * b2 + 2 ^ 24 * b3)%Z /\
    (Z.of_nat (length w) = p0 + 2 ^ 8 * p1 + 2 ^ 16 * p2 + 2 ^ 24 * p3 + 2 ^ 32 * p4 + 2 ^ 40 * p5 + 2 ^ 48 * p6 + 2 ^ 56 * p7)%Z.
Proof. exact @sound. Qed.
Print Assumptions C143_sound.
