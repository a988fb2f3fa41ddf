(* Concrete cases meeting the hypotheses of the row-id theorems, and the witnesses
   used by the refutations. *)
From Coq Require Import List Arith NArith Bool Lia.
From Verif Require Import Lib RowIdsModel RowIdsSpec EncArrProofs BitmapProofs SegProofs SeqProofs RechunkProofs.
Import ListNotations.
Local Open Scope nat_scope.

(* all five layouts are reachable from encoding *)
Example ex_range : seg_from_slice [3; 4; 5; 6]%N = Some (Range 3 7).
Proof. vm_compute. reflexivity. Qed.
Example ex_holes : seg_from_slice ([0] ++ nrange 2 98)%N = Some (Holes 0 100 (EU16 1 [0]%N)).
Proof. vm_compute. reflexivity. Qed.
Example ex_bitmap : exists bm,
  seg_from_slice [0; 2; 4; 6; 8; 10; 12; 14; 16; 18; 20; 22]%N = Some (BMap 0 23 bm)
  /\ seg_iter (BMap 0 23 bm) = [0; 2; 4; 6; 8; 10; 12; 14; 16; 18; 20; 22]%N.
Proof. eexists. split; [vm_compute; reflexivity|]. vm_compute. reflexivity. Qed.
Example ex_sorted : seg_from_slice [0; 1000; 2000]%N = Some (Sorted (EU16 0 [0; 1000; 2000]%N)).
Proof. vm_compute. reflexivity. Qed.
Example ex_array : seg_from_slice [9; 1; 5]%N = Some (Arr (EU16 1 [8; 0; 4]%N)).
Proof. vm_compute. reflexivity. Qed.

Lemma valid_dec : forall l, forallb (fun x => (x <? u64_max)%N) l = true -> valid_ids l.
Proof. intros l H. apply Forall_forall. rewrite forallb_forall in H. intros x Hx. apply N.ltb_lt. auto. Qed.

Example ex_lossless_hyps : valid_ids [9; 1; 5]%N /\ NoDup [9; 1; 5]%N.
Proof. split; [now apply valid_dec|]. repeat constructor; simpl; intuition discriminate. Qed.

(* a well-formed segment with a hole, one with a bitmap *)
Example ex_wf_holes : seg_wf (Holes 0 10 (EU16 5 [0]%N)).
Proof.
  cbn. unfold u16_max, two64. repeat split; auto; try lia; repeat constructor; lia.
Qed.
Example ex_wf_bitmap : exists s, seg_from_slice [0; 2; 4; 6; 8; 10; 12; 14; 16; 18; 20; 22]%N = Some s /\ seg_wf s.
Proof.
  destruct (seg_encode_lossless [0; 2; 4; 6; 8; 10; 12; 14; 16; 18; 20; 22]%N) as [s [A [B C]]].
  - now apply valid_dec.
  - apply sinc_NoDup. simpl. repeat split; intros; intuition lia.
  - eauto.
Qed.

Example ex_delete : omap seq_iter (seq_delete [Range 0 10; Arr (EU16 20 [5; 0]%N)] [20; 3]%N)
  = Some [0; 1; 2; 4; 5; 6; 7; 8; 9; 25]%N.
Proof. vm_compute. reflexivity. Qed.

Example ex_mask : omap seq_iter (seq_mask [Range 0 10; Arr (EU16 20 [5; 0]%N)] [0; 3; 11])
  = Some [1; 2; 4; 5; 6; 7; 8; 9; 25]%N.
Proof. vm_compute. reflexivity. Qed.

Example ex_rechunk : omap (map seq_iter)
   (match rechunk_sequences [[Range 0 10]; [Range 10 12; Range 20 25]] [3; 12; 2] with RcOk c => Some c | _ => None end)
  = Some [[0;1;2]; [3;4;5;6;7;8;9;10;11;20;21;22]; [23;24]]%N.
Proof. vm_compute. reflexivity. Qed.

Example ex_slice : omap slice_iter (seq_slice [Range 0 4; Range 10 14; Range 20 24] 2 8)
  = Some [2; 3; 10; 11; 12; 13; 20; 21]%N.
Proof. vm_compute. reflexivity. Qed.

(** ** Refutations *)

(* C01 at the reserved value: max + 1 overflows (segment.rs:173) *)
Lemma seg_encode_u64max_overflow : seg_from_slice [u64_max] = None.
Proof. vm_compute. reflexivity. Qed.

(* duplicates: the hole count underflows (segment.rs:98) *)
Lemma seg_encode_duplicates_panic : seg_from_slice [5; 5]%N = None.
Proof. vm_compute. reflexivity. Qed.

(* C04 with a repeated id in the delete list *)
Lemma seq_delete_duplicates_wrong :
  exists q ids q', seq_wf q /\ NoDup (seq_iter q) /\ seq_delete q ids = Some q' /\
    exists v, In v ids /\ In v (seq_iter q').
Proof.
  exists [Range 0 10], [1; 1; 2]%N. eexists. split; [|split; [|split]].
  - constructor; [|constructor]. cbn. unfold two64. lia.
  - apply sinc_NoDup. change (seq_iter [Range 0 10]) with (nrange 0 10 ++ []). rewrite app_nil_r. apply nrange_sinc.
  - vm_compute. reflexivity.
  - exists 2%N. split; vm_compute; tauto.
Qed.

(* C05 for a deletion vector iterated in hash order, as at
   rust/lance/src/index/prefilter.rs:162 and rust/lance/src/dataset/optimize.rs:794 *)
Lemma seq_mask_unsorted_wrong :
  exists q ps q', seq_wf q /\ NoDup ps /\ (forall p, In p ps -> p < length (seq_iter q)) /\
    seq_mask q ps = Some q' /\
    exists p v, In p ps /\ nth_error (seq_iter q) p = Some v /\ In v (seq_iter q').
Proof.
  exists [Range 0 10], [4; 1]. eexists. split; [|split; [|split; [|split]]].
  - constructor; [|constructor]. cbn. unfold two64. lia.
  - repeat constructor; simpl; intuition discriminate.
  - intros p Hp. vm_compute in Hp. vm_compute. destruct Hp as [<-|[<-|[]]]; lia.
  - vm_compute. reflexivity.
  - exists 1, 1%N. repeat split; vm_compute; tauto.
Qed.

(* C06: a slice of a segment with holes (segment.rs:282-293) *)
Lemma seg_slice_holes_wrong :
  exists s off len s', seg_wf s /\ off + len <= length (seg_iter s) /\
    seg_slice s off len = Some s' /\ seg_iter s' <> firstn len (skipn off (seg_iter s)).
Proof.
  exists (Holes 0 10 (EU16 5 [0]%N)), 0, 9. eexists.
  split; [apply ex_wf_holes|]. split; [vm_compute; lia|]. split; [vm_compute; reflexivity|].
  vm_compute. discriminate.
Qed.

(* C06: a slice of a segment with a bitmap counts slots, not ids (segment.rs:299-309) *)
Lemma seg_slice_bitmap_wrong :
  exists s off len s', seg_wf s /\ (exists a b bm, s = BMap a b bm) /\ off + len <= length (seg_iter s) /\
    seg_slice s off len = Some s' /\ seg_iter s' <> firstn len (skipn off (seg_iter s)).
Proof.
  destruct (seg_encode_lossless [0; 2; 4; 6; 8; 10; 12; 14; 16; 18; 20; 22]%N) as [s [A [B C]]].
  - now apply valid_dec.
  - apply sinc_NoDup. simpl. repeat split; intros; intuition lia.
  - vm_compute in A. injection A as <-.
    eexists _, 1, 1, _. split; [exact C|]. split; [eauto|]. split; [rewrite B; simpl; lia|].
    split; [vm_compute; reflexivity|]. vm_compute. discriminate.
Qed.

(* C08: totals match, the call succeeds, ids are lost *)
Lemma rechunk_holes_wrong :
  exists qs sizes cs, Forall seq_wf qs /\ sumn sizes = length (concat (map seq_iter qs)) /\
    rechunk_sequences qs sizes = RcOk cs /\ concat (map seq_iter cs) <> concat (map seq_iter qs).
Proof.
  exists [[Holes 0 10 (EU16 5 [0]%N)]], [9]. eexists.
  split; [constructor; [constructor; [apply ex_wf_holes|constructor]|constructor]|]. split; [vm_compute; reflexivity|].
  split; [vm_compute; reflexivity|]. vm_compute. discriminate.
Qed.

(* C08: an empty segment makes matching totals fail, and wrong totals pass *)
Lemma rechunk_empty_segment_wrong :
  (exists qs sizes, Forall seq_wf qs /\ sumn sizes = length (concat (map seq_iter qs)) /\
     rechunk_sequences qs sizes = RcErr) /\
  (exists qs sizes cs, Forall seq_wf qs /\ sumn sizes <> length (concat (map seq_iter qs)) /\
     rechunk_sequences qs sizes = RcOk cs).
Proof.
  assert (W : Forall seq_wf [[Range 0 0; Range 0 5]]).
  { repeat constructor; cbn; unfold two64; lia. }
  split.
  - exists [[Range 0 0; Range 0 5]], [5]. split; [exact W|]. split; vm_compute; reflexivity.
  - exists [[Range 0 0; Range 0 5]], [5; 5]. eexists. split; [exact W|]. split; [vm_compute; discriminate|].
    vm_compute. reflexivity.
Qed.
