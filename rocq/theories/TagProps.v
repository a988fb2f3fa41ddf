(* C52, C82: tags. *)
From Coq Require Import List Arith NArith ZArith Bool Permutation Sorted.
From Verif Require Import Lib NamingModel CleanupModel TagModel TagProofs.
Import ListNotations.
From Coq Require Import String.
Open Scope list_scope.
Local Open Scope N_scope.

(* The names accepted are exactly words joined by single dots, not ending in ".lock". *)
Theorem C52_grammar_exact : forall alnum s, alnum 46 = false -> (check_valid_ref alnum s = true <-> tag_grammar alnum s).
Proof. exact @grammar_exact. Qed.
Print Assumptions C52_grammar_exact.

(* Two accepted tags never share a file. *)
Theorem C52_distinct_tags_distinct_files : forall alnum a b, alnum_contract alnum -> check_valid_ref alnum a = true -> check_valid_ref alnum b = true -> file_of a = file_of b -> a = b.
Proof. exact @distinct_tags_distinct_files. Qed.
Print Assumptions C52_distinct_tags_distinct_files.

(* Creation alone: when it succeeds, and what it changes. *)
Theorem C52_create_exact : forall alnum ev d tag v, alnum_contract alnum ->
  match create alnum ev d tag v with
  | Some d' => check_valid_ref alnum tag = true /\ get_version alnum d tag = None /\ ev v = true /\ forall t, get_version alnum d' t = if str_eqb tag t then Some v else get_version alnum d t
  | None => check_valid_ref alnum tag = false \/ get_version alnum d tag <> None \/ ev v = false
  end.
Proof. exact @create_exact. Qed.
Print Assumptions C52_create_exact.

(* Update alone. *)
Theorem C52_update_exact : forall alnum ev d tag v, alnum_contract alnum ->
  match update alnum ev d tag v with
  | Some d' => check_valid_ref alnum tag = true /\ get_version alnum d tag <> None /\ ev v = true /\ forall t, get_version alnum d' t = if str_eqb tag t then Some v else get_version alnum d t
  | None => get_version alnum d tag = None \/ ev v = false
  end.
Proof. exact @update_exact. Qed.
Print Assumptions C52_update_exact.

(* Deletion alone. *)
Theorem C52_delete_exact : forall alnum d tag, alnum_contract alnum ->
  match delete alnum d tag with
  | Some d' => get_version alnum d tag <> None /\ forall t, get_version alnum d' t = if str_eqb tag t then None else get_version alnum d t
  | None => get_version alnum d tag = None
  end.
Proof. exact @delete_exact. Qed.
Print Assumptions C52_delete_exact.

(* Two creators of one tag can both be told they succeeded. *)
Theorem C52_exclusive_creation_refuted : exists s t, started s /\ truns s t /\ tg_pc t 0 = TOk 1 /\ tg_pc t 1 = TOk 2 /\ tg_tag t = Some 2.
Proof. exact @exclusive_creation_refuted. Qed.
Print Assumptions C52_exclusive_creation_refuted.

(* Under any interleaving, the stored version is one whose creator was told so. *)
Theorem C52_stored_by_a_creator : forall s t, started s -> truns s t -> (forall v, tg_tag t = Some v -> exists i, tg_pc t i = TOk v) /\ (forall i v, tg_pc t i = TOk v -> tg_tag t <> None).
Proof. exact @stored_by_a_creator. Qed.
Print Assumptions C52_stored_by_a_creator.

(* When no two creators are between check and write at once, at most one succeeds. *)
Theorem C52_serial_creation_exclusive : forall s t, started s -> sruns s t -> forall i j v w, tg_pc t i = TOk v -> tg_pc t j = TOk w -> i = j /\ v = w /\ tg_tag t = Some v.
Proof. exact @serial_creation_exclusive. Qed.
Print Assumptions C52_serial_creation_exclusive.

(* With ASCII tags only, the listing is the map of tags. *)
Theorem C82_listing_exact : forall alnum ev d, alnum_contract alnum -> reached alnum ev d -> (forall tag, get_version alnum d tag <> None -> is_ascii tag) ->
  exists l, list_tags d d = Some l /\ NoDup (map fst l) /\ forall tag v, In (tag, v) l <-> get_version alnum d tag = Some v.
Proof. exact @listing_exact. Qed.
Print Assumptions C82_listing_exact.

(* The file of an ASCII tag. *)
Theorem C82_ascii_file_name : forall alnum s, alnum_contract alnum -> check_valid_ref alnum s = true -> is_ascii s -> file_of s = s ++ lit ".json".
Proof. exact @ascii_file_name. Qed.
Print Assumptions C82_ascii_file_name.

(* One accepted tag outside ASCII makes the listing fail. *)
Theorem C82_non_ascii_tag_breaks_listing : forall alnum ev d tag, alnum_contract alnum -> reached alnum ev d -> get_version alnum d tag <> None -> ~ is_ascii tag -> list_tags d d = None.
Proof. exact @non_ascii_tag_breaks_listing. Qed.
Print Assumptions C82_non_ascii_tag_breaks_listing.

(* A tag that was created and resolves, and no listing. *)
Theorem C82_created_tag_listed_refuted : exists alnum ev d, alnum_contract alnum /\ create alnum ev [] [233] 1 = Some d /\ get_version alnum d [233] = Some 1 /\ list_tags d d = None.
Proof. exact @created_tag_listed_refuted. Qed.
Print Assumptions C82_created_tag_listed_refuted.
