(* C127: strings with few distinct values in format 2.0. *)
From Coq Require Import List Arith NArith ZArith Bool Permutation Sorted.
From Verif Require Import Lib PageModel ListEncModel ListEncProofs SerdeModel FlatModel FlatProofs FlatPage SDictModel SDictProofs SDictExamples.
Import ListNotations.
Local Open Scope nat_scope.

(* missing from C127: more than 254 (without overflow checks 255) distinct strings, for which it is false *)
Theorem C127_rows_partial : forall checked arrs rs skip n, Forall array_ok arrs -> distinct (BinEncProofs.strings_of arrs) <= limit checked -> BinEncProofs.strings_of arrs <> [] ->
  ranges_in (length (BinEncProofs.strings_of arrs)) rs -> skip + n <= rows_of rs ->
  read_sdict checked arrs rs skip n = Some (firstn n (skipn skip (flat_map (fun r => slice (fst r) (snd r) (BinEncProofs.strings_of arrs)) rs))).
Proof. exact @sdict_exact. Qed.
Print Assumptions C127_rows_partial.

(* with a threshold of 100, any estimate that is at most 155 too low *)
Theorem C127_chosen_partial : forall checked est err th arrs rs skip n, (forall l, length (nodup (list_eq_dec Nat.eq_dec) l) <= est l + err) -> th + err <= 255 ->
  check_dict est th (BinEncProofs.strings_of arrs) = true -> Forall array_ok arrs -> BinEncProofs.strings_of arrs <> [] ->
  ranges_in (length (BinEncProofs.strings_of arrs)) rs -> skip + n <= rows_of rs ->
  read_sdict checked arrs rs skip n = Some (firstn n (skipn skip (flat_map (fun r => slice (fst r) (snd r) (BinEncProofs.strings_of arrs)) rs))).
Proof. exact @chosen_exact. Qed.
Print Assumptions C127_chosen_partial.

Theorem C127_wraps_refuted : exists arrs, Forall array_ok arrs /\ distinct (BinEncProofs.strings_of arrs) = 256 /\ nth 255 (BinEncProofs.strings_of arrs) None = Some [255] /\ read_sdict false arrs [(255, 256)] 0 1 = Some [None].
Proof. exact @sdict_wraps_refuted. Qed.
Print Assumptions C127_wraps_refuted.

Theorem C127_alias_refuted : exists arrs, Forall array_ok arrs /\ nth 256 (BinEncProofs.strings_of arrs) None = Some [256] /\ read_sdict false arrs [(256, 257)] 0 1 = Some [Some [0]].
Proof. exact @sdict_alias_refuted. Qed.
Print Assumptions C127_alias_refuted.

Theorem C127_overflow_refuted : exists arrs, Forall array_ok arrs /\ distinct (BinEncProofs.strings_of arrs) = 255 /\ sdict_encode true (BinEncProofs.strings_of arrs) = None.
Proof. exact @sdict_overflow_refuted. Qed.
Print Assumptions C127_overflow_refuted.

Theorem C127_threshold_refuted : exists arrs th, Forall array_ok arrs /\ check_dict (fun l => Nat.min 256 (length l)) th (BinEncProofs.strings_of arrs) = true /\
  read_sdict false arrs [(255, 256)] 0 1 = Some [None] /\ nth 255 (BinEncProofs.strings_of arrs) None = Some [255].
Proof. exact @sdict_threshold_refuted. Qed.
Print Assumptions C127_threshold_refuted.
