(* C96, C97: adding columns, and resuming it from a checkpoint. *)
From Coq Require Import List Arith NArith ZArith Bool Permutation Sorted.
From Verif Require Import Lib AMap RowIdsModel SerdeModel ReadParamsModel DeletionModel DeletionSpec DeletionProofs UpdaterProofs FragReadModel ProjModel AddColsModel FragReadProofs AddColsProofs.
Import ListNotations.
Local Open Scope nat_scope.

(* a written column holds, at every surviving row, what the mapper returned for that row of its batch *)
Theorem C96_fragment_sound_partial : forall {A B} u (m : list A -> option (list B)) f g, afrag_ok f -> 0 < batch_rows u -> add_to_fragment u m f = Ok g ->
  exists new, Forall2 (fun b x => m b = Some x /\ length x = length b) (input_batches u f) new /\ holds f (concat new) g.
Proof. exact @fragment_sound. Qed.
Print Assumptions C96_fragment_sound_partial.

(* an expression: every surviving row of every fragment gets its own value, deletions are kept *)
Theorem C96_rowwise_sound_partial : forall {A B} u (h : A -> B) fs gs, Forall afrag_ok fs -> 0 < batch_rows u -> add_columns_impl u (rowwise h) fs = Ok gs -> Forall2 (computed h) fs gs.
Proof. exact @rowwise_sound. Qed.
Print Assumptions C96_rowwise_sound_partial.

(* it goes through exactly when every fragment has a surviving row in its first batch *)
Theorem C96_rowwise_total_partial : forall {A B} u (h : A -> B) fs, Forall afrag_ok fs -> 0 < batch_rows u -> u_legacy u = None ->
  ((exists gs, add_columns_impl u (rowwise h) fs = Ok gs) <-> Forall (first_live (batch_rows u)) fs).
Proof. exact @rowwise_total. Qed.
Print Assumptions C96_rowwise_total_partial.

(* a stream: its values go to the surviving rows in order, none left over *)
Theorem C96_stream_sound_partial : forall {A B} u (fs : list (afrag A)) (st : list (list B)) gs, Forall afrag_ok fs -> 0 < batch_rows u ->
  add_columns_from_stream u fs st = Ok gs ->
  exists vals, length vals = length fs /\ concat vals = concat st /\ Forall2 (fun fv g => holds (fst fv) (snd fv) g) (combine fs vals) gs.
Proof. exact @stream_sound. Qed.
Print Assumptions C96_stream_sound_partial.

(* with a surviving row in every batch, accepted exactly when the number of values is right *)
Theorem C96_stream_total_partial : forall {A B} u (fs : list (afrag A)) (st : list (list B)), Forall afrag_ok fs -> 0 < batch_rows u -> u_legacy u = None ->
  Forall (batches_live u) fs -> Forall (fun b => b <> []) st ->
  (length (concat st) = total_live fs -> exists gs, add_columns_from_stream u fs st = Ok gs) /\
  (length (concat st) <> total_live fs -> add_columns_from_stream u fs st = Err).
Proof. exact @stream_total. Qed.
Print Assumptions C96_stream_total_partial.

(* a batch of a fragment without surviving rows: panic *)
Theorem C96_stream_panic_refuted : exists u (fs : list (afrag nat)) (st : list (list nat)), Forall afrag_ok fs /\ 0 < batch_rows u /\ u_legacy u = None /\
  length (concat st) = total_live fs /\ Forall (fun b => b <> []) st /\ add_columns_from_stream u fs st = Panic.
Proof. exact @stream_panic_refuted. Qed.
Print Assumptions C96_stream_panic_refuted.

(* an empty batch at the end of the stream: rejected *)
Theorem C96_stream_trailing_refuted : exists u (fs : list (afrag nat)) (st : list (list nat)), Forall afrag_ok fs /\ 0 < batch_rows u /\ u_legacy u = None /\
  length (concat st) = total_live fs /\ Forall (batches_live u) fs /\ add_columns_from_stream u fs st = Err.
Proof. exact @stream_trailing_refuted. Qed.
Print Assumptions C96_stream_trailing_refuted.

(* the first batch without surviving rows: rejected *)
Theorem C96_first_batch_refuted : exists u (f : afrag nat), afrag_ok f /\ 0 < batch_rows u /\ u_legacy u = None /\ live_offs f <> [] /\ add_columns_impl u (rowwise S) [f] = Err.
Proof. exact @first_batch_refuted. Qed.
Print Assumptions C96_first_batch_refuted.

(* an attempt over a cache of earlier attempts at the same fragments gives what an uninterrupted run gives *)
Theorem C97_cached_spec_partial : forall {A B} u (m : list A -> option (list B)) fs, NoDup (map af_id fs) ->
  forall fuel c res n c', cache_of u m fs c -> cached_impl u m fs fuel c = (res, n, c') ->
  cache_of u m fs c' /\ match res with Done gs => add_columns_impl u m fs = Ok gs | Failed => forall gs, add_columns_impl u m fs <> Ok gs | Stopped => True end.
Proof. exact @cached_spec. Qed.
Print Assumptions C97_cached_spec_partial.

(* however often it was interrupted *)
Theorem C97_resumed_same_partial : forall {A B} u (m : list A -> option (list B)) fs fuels fuel gs n c', NoDup (map af_id fs) ->
  cached_impl u m fs fuel (attempts u m fs fuels empty_cache) = (Done gs, n, c') -> add_columns_impl u m fs = Ok gs.
Proof. exact @resumed_same. Qed.
Print Assumptions C97_resumed_same_partial.

(* rows deleted between the attempts are back *)
Theorem C97_resumed_deletes_refuted : exists u (m : list nat -> option (list nat)) (fs fs' : list (afrag nat)) fuel fuel' gs n c',
  Forall afrag_ok fs /\ Forall afrag_ok fs' /\ NoDup (map af_id fs) /\ NoDup (map af_id fs') /\ Forall2 (fun f f' => af_id f = af_id f' /\ af_phys f = af_phys f' /\ af_row f = af_row f') fs fs' /\
  cached_impl u m fs' fuel' (snd (cached_impl u m fs fuel empty_cache)) = (Done gs, n, c') /\
  exists f g, nth_error fs' 0 = Some f /\ nth_error gs 0 = Some g /\ dv_has (af_del f) 1 /\ ~ dv_has (uf_del g) 1.
Proof. exact @resumed_deletes_refuted. Qed.
Print Assumptions C97_resumed_deletes_refuted.
