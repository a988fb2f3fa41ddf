(* C46-C48, C79-C81: removing old versions *)
From Coq Require Import List Arith NArith ZArith Bool Permutation Sorted.
From Verif Require Import Lib NamingModel CleanupModel CleanupProofs.
Import ListNotations.
From Coq Require Import String.
Open Scope list_scope.
Local Open Scope Z_scope.

(* after any part of the removals, every kept version has its manifest and all its files *)
Theorem C46_cleanup_safe : forall c tg l i now done, unique_paths l -> inspect c tg l = Some i -> stopped (removals c now i l) done ->
  forall q m, holds l q m -> kept c tg m -> starts_with (joined q) (lit "_versions/.tmp") = false ->
  holds (remove_all done l) q m /\ forall p o, needs m p -> In (p, o) l -> In (p, o) (remove_all done l).
Proof. exact @cleanup_safe. Qed.
Print Assumptions C46_cleanup_safe.

(* whatever the directory contains by the time it is listed *)
Theorem C46_kept_files_survive : forall c tg l i l' now p, inspect c tg l = Some i -> keeps c tg l p -> ~ In p (removals c now i l').
Proof. exact @kept_files_survive. Qed.
Print Assumptions C46_kept_files_survive.

(* the manifests of kept versions are never among the removals *)
Theorem C46_kept_manifests_survive : forall c tg l i l' now p m, unique_paths l -> inspect c tg l = Some i -> holds l p m -> kept c tg m ->
  starts_with (joined p) (lit "_versions/.tmp") = false -> ~ In p (removals c now i l').
Proof. exact @kept_manifests_survive. Qed.
Print Assumptions C46_kept_manifests_survive.

(* and a complete run leaves only what is kept, recent, or possibly in progress *)
Theorem C46_complete_run : forall c tg now l l', cleanup c tg now l = Some l' ->
  forall p o, In (p, o) l' ->
    (classed p -> ct_before c <= ob_time o \/ (ct_unverified c = false /\ young now (ob_time o)) \/ keeps c tg l p) /\
    forall m, is_manifest p = true -> ob_man o = Some m -> kept c tg m.
Proof. exact @complete_run. Qed.
Print Assumptions C46_complete_run.

(* a young file is only removed because it belongs to a version that is not kept *)
Theorem C47_young_files_kept : forall c tg l i l' now p, ct_unverified c = false -> inspect c tg l = Some i ->
  (forall o, In (p, o) l' -> young now (ob_time o)) -> in_layout p ->
  In p (removals c now i l') -> exists q m, holds l q m /\ ~ kept c tg m /\ (needs m p \/ p = q).
Proof. exact @young_files_kept. Qed.
Print Assumptions C47_young_files_kept.

(* nothing modified after the cutoff is removed, old manifests excepted *)
Theorem C47_removed_before : forall c tg l i l' now p, inspect c tg l = Some i -> In p (removals c now i l') ->
  (exists o, In (p, o) l' /\ ob_time o < ct_before c) \/ exists m, holds l p m /\ ~ kept c tg m.
Proof. exact @removed_before. Qed.
Print Assumptions C47_removed_before.

(* a version committed meanwhile loses no file, if its files are kept ones or new ones *)
Theorem C47_concurrent_write : forall c tg l i l' now m, inspect c tg l = Some i ->
  (forall p, needs m p -> keeps c tg l p \/
     (~ referenced l p /\ forall o, In (p, o) l' -> ct_before c <= ob_time o \/ (ct_unverified c = false /\ young now (ob_time o)))) ->
  forall p, needs m p -> ~ In p (removals c now i l').
Proof. exact @concurrent_commit. Qed.
Print Assumptions C47_concurrent_write.

(* a tag on a version that would be removed stops the cleanup *)
Theorem C48_old_tagged_errors : forall c tg l, ct_error c = true -> old_tagged c tg l -> inspect c tg l = None.
Proof. exact @old_tagged_errors. Qed.
Print Assumptions C48_old_tagged_errors.

(* but the error is raised for any tag on an existing version *)
Theorem C48_error_iff : forall c tg l, (forall p o, In (p, o) l -> is_manifest p = true -> ob_man o <> None) ->
  (inspect c tg l = None <-> ct_error c = true /\ exists q m, holds l q m /\ In (mi_version m) tg).
Proof. exact @error_iff. Qed.
Print Assumptions C48_error_iff.

(* such as one on the current version *)
Theorem C48_tagged_latest_refuted : exists c tg l, ct_error c = true /\ (exists q m, holds l q m /\ mi_version m = ct_version c /\ In (mi_version m) tg) /\
  (forall p o, In (p, o) l -> is_manifest p = true -> ob_man o <> None) /\ ~ old_tagged c tg l /\ inspect c tg l = None.
Proof. exact @tagged_latest_refuted. Qed.
Print Assumptions C48_tagged_latest_refuted.

(* a version restored between inspection and removal loses its files *)
Theorem C79_restored_version_loses_files_refuted : exists c tg l i l' now m m' p, inspect c tg l = Some i /\ unique_paths l' /\ incl l l' /\
  holds l (vpath "1.manifest") m /\ mi_version m = 1%N /\
  holds l' (vpath "3.manifest") m' /\ (ct_version c < mi_version m')%N /\ mi_data m' = mi_data m /\
  needs m' p /\ In p (removals c now i l').
Proof. exact @restored_version_loses_files_refuted. Qed.
Print Assumptions C79_restored_version_loses_files_refuted.

(* a version tagged after the tags were listed is removed *)
Theorem C79_new_tag_ignored_refuted : exists c tg tg' l i now q m, inspect c tg l = Some i /\ incl tg tg' /\ holds l q m /\ kept c tg' m /\ In q (removals c now i l).
Proof. exact @new_tag_ignored_refuted. Qed.
Print Assumptions C79_new_tag_ignored_refuted.

(* commits that add only new or kept files are safe *)
Theorem C79_concurrent_commit_partial : forall c tg l i l' now m, inspect c tg l = Some i ->
  (forall p, needs m p -> keeps c tg l p \/
     (~ referenced l p /\ forall o, In (p, o) l' -> ct_before c <= ob_time o \/ (ct_unverified c = false /\ young now (ob_time o)))) ->
  forall p, needs m p -> ~ In p (removals c now i l').
Proof. exact @concurrent_commit. Qed.
Print Assumptions C79_concurrent_commit_partial.

(* a dataset stored below this one as data.lance loses its data files *)
Theorem C80_foreign_removed_refuted : exists c tg l i now p o, inspect c tg l = Some i /\ ct_unverified c = false /\ In (p, o) l /\ ~ in_layout p /\ ~ referenced l p /\ In p (removals c now i l).
Proof. exact @foreign_removed_refuted. Qed.
Print Assumptions C80_foreign_removed_refuted.

(* only names that start like the dataset's own directories are at risk *)
Theorem C80_removed_prefix_partial : forall c tg l i l' now p, inspect c tg l = Some i -> In p (removals c now i l') ->
  (exists d, In d ["data"; "_deletions"; "_transactions"; "_indices"; "_versions/.tmp"]%string /\ starts_with (joined p) (lit d) = true) \/ exists m, holds l p m /\ ~ kept c tg m.
Proof. exact @removed_prefix. Qed.
Print Assumptions C80_removed_prefix_partial.

(* if an old manifest goes first, its recent files are stranded *)
Theorem C81_restart_out_of_order_refuted : exists c tg l i now done, unique_paths l /\ no_tmp l /\ inspect c tg l = Some i /\ incl done (removals c now i l) /\
  paths (cleanup c tg now (remove_all done l)) <> paths (cleanup c tg now l).
Proof. exact @restart_out_of_order_refuted. Qed.
Print Assumptions C81_restart_out_of_order_refuted.

(* removals carried out in order: stopping anywhere and starting over ends the same way *)
Theorem C81_restart_in_order_partial : forall c tg l i now done rest, unique_paths l -> no_tmp l -> inspect c tg l = Some i -> removals c now i l = done ++ rest ->
  cleanup c tg now (remove_all done l) = cleanup c tg now l.
Proof. exact @restart_in_order. Qed.
Print Assumptions C81_restart_in_order_partial.

(* in any order, if unverified files are removed too *)
Theorem C81_restart_unverified_partial : forall c tg l i now done, unique_paths l -> no_tmp l -> ct_unverified c = true -> inspect c tg l = Some i -> incl done (removals c now i l) ->
  cleanup c tg now (remove_all done l) = cleanup c tg now l.
Proof. exact @restart_unverified. Qed.
Print Assumptions C81_restart_unverified_partial.
