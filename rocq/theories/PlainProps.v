(* C138: plain encoding of format 1. *)
From Coq Require Import List Arith NArith ZArith Bool Permutation Sorted.
From Verif Require Import PlainModel PlainProofs PlainTake PlainExamples.
Import ListNotations.
Local Open Scope nat_scope.

(* a range read returns those rows as they were written, wherever the page is in the file, and fails beyond the end *)
Theorem C138_range_partial t pre post arrays s e : sized t -> Forall (has t) (concat arrays) -> forall r,
  get (pre ++ write t arrays ++ post) t (length pre) (length (concat arrays)) s e = r ->
  (s < e /\ e <= length (concat arrays) -> exists vs, r = Some vs /\ length vs = e - s /\ forall k, k < e - s -> nth_error vs k = nth_error (concat arrays) (s + k)) /\
  (s < e /\ length (concat arrays) < e -> r = None) /\ (e <= s -> r = Some []).
Proof. apply get_range. Qed.
Print Assumptions C138_range_partial.

(* whatever the indices and the size of blocks: take returns the rows asked for in the order asked for, or fails *)
Theorem C138_take_sound_partial block t pre post arrays indices vs : sized t -> Forall (has t) (concat arrays) ->
  take block (pre ++ encode t arrays ++ post) t (length pre) (length (concat arrays)) indices = Some vs -> Forall2 (fun i v => nth_error (concat arrays) i = Some v) indices vs.
Proof. apply take_sound. Qed.
Print Assumptions C138_take_sound_partial.

(* in order and in range it does not fail *)
Theorem C138_take_total_partial block t pre post arrays indices : sized t -> flat_bool t -> Forall (has t) (concat arrays) -> StronglySorted le indices -> Forall (fun i => i < length (concat arrays)) indices ->
  exists vs, take block (pre ++ encode t arrays ++ post) t (length pre) (length (concat arrays)) indices = Some vs.
Proof. apply take_total. Qed.
Print Assumptions C138_take_total_partial.

(* lists of booleans can be read but not taken *)
Theorem C138_list_bool_refuted : (forall block file n pos len i is, take block file (TFsl TBool n) pos len (i :: is) = None) /\
  exists file, get file (TFsl TBool 2) 0 2 0 2 = Some [VList [VBit true; VBit false]; VList [VBit true; VBit true]] /\ file = write (TFsl TBool 2) [[VList [VBit true; VBit false]; VList [VBit true; VBit true]]].
Proof. exact @take_list_bool_refuted. Qed.
Print Assumptions C138_list_bool_refuted.

(* indices out of order fail *)
Theorem C138_order_refuted : exists block file t len, file = encode t [ex_bits 81] /\ t = TBool /\ len = 81 /\
  take block file t 0 len [3; 1] = None /\ take block file t 0 len [1; 3; 2] = None /\ take block file t 0 len [1; 2; 3] <> None.
Proof. exact @take_order_refuted. Qed.
Print Assumptions C138_order_refuted.

(* lists of size zero are lost *)
Theorem C138_zero_refuted : forall file t pos len s e, s < e -> get file (TFsl t 0) pos len s e = Some [].
Proof. exact @get_zero_refuted. Qed.
Print Assumptions C138_zero_refuted.
