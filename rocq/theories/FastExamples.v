(* Bit packing: examples, and pages of integers that are not written or not read. *)
From Coq Require Import List Arith NArith ZArith Bool Lia.
From Verif Require Import Lib SerdeModel SerdeProofs RepDefModel FullZipModel FullZipProofs FullZipRead FullZipPage FullZipVar FullZipExamples MiniModel MiniProofs MiniSched MiniBytes MiniPage MiniRead MiniString MiniExamples FastModel FastProofs FastChunk.
Import ListNotations.
Local Open Scope nat_scope.

(* 1024 values of 5 bits in words of 16: every third value is cut by the end of a word *)
Definition ex_vals (m : N) : list N := map (fun n => ((N.of_nat n * N.of_nat n + 3 * N.of_nat n) mod m)%N) (seq 0 1024).
Example ex_pack : exists p, fl_pack 16 5 (ex_vals 32) (repeat 777%N 320) = Some p /\ length p = 1024 * 5 / 16 /\ Forall (fun v => (v < 2 ^ N.of_nat 16)%N) p /\ fl_unpack 16 5 p (repeat 9%N 1024) = Some (ex_vals 32).
Proof.
  apply pack_unpack; [right; left; reflexivity|lia|vm_compute; reflexivity| |rewrite repeat_length; vm_compute; reflexivity|apply repeat_length].
  apply (forall_b _ (fun x => (x <? 32)%N)); [intros x X; apply N.ltb_lt; exact X|vm_compute; reflexivity].
Qed.
(* wider values keep their lower bits *)
Example ex_low_bits : exists p, fl_pack 8 3 (ex_vals 100) (repeat 0%N 384) = Some p /\ fl_unpack 8 3 p (repeat 0%N 1024) = Some (map (fun x => x mod 2 ^ N.of_nat 3)%N (ex_vals 100)) /\ ex_vals 100 <> map (fun x => x mod 2 ^ N.of_nat 3)%N (ex_vals 100).
Proof.
  destruct (pack_unpack_mod 8 3 (ex_vals 100) (repeat 0%N 384) (repeat 0%N 1024)) as [p (A & _ & _ & B)]; [left; reflexivity|lia|vm_compute; reflexivity| |rewrite repeat_length; vm_compute; reflexivity|apply repeat_length|].
  - apply (forall_b _ (fun x => (x <? 2 ^ N.of_nat 8)%N)); [intros x X; apply N.ltb_lt; exact X|vm_compute; reflexivity].
  - exists p. split; [exact A|]. split; [exact B|]. intros E. apply (f_equal (fun l => nth 2 l 0%N)) in E. vm_compute in E. discriminate.
Qed.
Example ex_layout : exists p, fl_pack 64 7 (ex_vals 128) (repeat 5%N 112) = Some p /\ length p = 112 /\ N.testbit (nth (16 * ((9 * 7 + 1) / 64) + 3) p 0%N) 0 = N.testbit (nth (16 * 4 + 128 * 1 + 3) (ex_vals 128) 0%N) 1.
Proof.
  destruct (pack_layout 64 7 (ex_vals 128) (repeat 5%N 112)) as [p (A & B & C)]; [right; right; right; reflexivity|lia|vm_compute; reflexivity| |rewrite repeat_length; vm_compute; reflexivity|].
  - apply (forall_b _ (fun x => (x <? 2 ^ N.of_nat 64)%N)); [intros x X; apply N.ltb_lt; exact X|vm_compute; reflexivity].
  - exists p. split; [exact A|]. split; [exact B|]. apply (C 1 1 3 1); cbn; lia.
Qed.
Example ex_width : chunk_width [3; 0; 9; 4]%N = 4 /\ Forall (fun x => (x < 2 ^ N.of_nat 4)%N) [3; 0; 9; 4]%N.
Proof. split; [reflexivity|apply width_least; vm_compute; repeat constructor]. Qed.

(* ---- pages ---- *)
Lemma bytes_okb : forall k l, forallb (fun v : list N => (length v =? k) && forallb (fun b => (b <? 256)%N) v) l = true -> bytes_ok k l.
Proof.
  intros k l H. apply (forall_b _ (fun v : list N => (length v =? k) && forallb (fun b => (b <? 256)%N) v)); [|exact H]. intros v V. apply andb_true_iff in V as [V1 V2]. split; [apply Nat.eqb_eq; exact V1|]. apply (forall_b _ (fun b => (b <? 256)%N)); [intros b B; apply N.ltb_lt; exact B|exact V2].
Qed.
Definition no_mem (i j : nat) : N := N.of_nat (i + j).
(* 1500 nullable values of 16 bits: two chunks *)
Definition ex_shorts : list (list item) := map (fun n => [it 0 (if n mod 7 =? 0 then 1 else 0) (Some (le_bytes 2 (N.of_nat (n mod 300))))]) (seq 0 1500).
Example ex_fixed_flat : exists c b p, fixed_blocks 2 (page_vals ex_shorts) no_mem = Some (c, b) /\ encode_mini (page_levels [NullableItem] true ex_shorts) (length (page_vals ex_shorts)) b = Some p /\
  read_mini (fixed_decode 2 c) p 1 [(3, 4); (1020, 1030); (1499, 1500)] [5; 7] = Some (map (batch_of [NullableItem] true) (groups [5; 7] (flat_map (pick ex_shorts) [(3, 4); (1020, 1030); (1499, 1500)]))).
Proof.
  apply (fixed_flat [NullableItem] true 1 ex_shorts 2); [apply mini_okb_ok; vm_compute; reflexivity|reflexivity|lia|reflexivity|apply bytes_okb; vm_compute; reflexivity| |repeat constructor|vm_compute; repeat constructor].
  change (length ex_shorts) with 1500. cbn [sorted fst snd]. repeat split; lia.
Qed.
(* 700 lists of up to two values of 32 bits, with empty lists *)
Definition ex_ints : list (list item) :=
  map (fun n => if n mod 7 =? 0 then [it 1 2 None] else if n mod 7 =? 3 then [it 1 3 None] else [it 1 0 (Some (le_bytes 4 (N.of_nat (n + 1)))); it 0 (n mod 2) (Some (le_bytes 4 (N.of_nat n * N.of_nat n)))]) (seq 0 800).
Lemma ex_ints_ok : mini_ok ms_lists true 1 ex_ints.
Proof. apply mini_okb_ok. vm_compute. reflexivity. Qed.
Lemma ex_ints_runs : no_zero_run (page_vals ex_ints).
Proof. intros i I. assert (L : length (page_vals ex_ints) = 1142) by (vm_compute; reflexivity). exists (1024 * i). destruct i as [|[|i]]; [| |lia]; eexists; (split; [lia|]); (split; [vm_compute; reflexivity|]); vm_compute; discriminate. Qed.
Example ex_packed_lists : exists b p, fixed_blocks 4 (page_vals ex_ints) no_mem = Some (true, b) /\ encode_mini (page_levels ms_lists true ex_ints) (length (page_vals ex_ints)) b = Some p /\
  read_mini (fixed_decode 4 true) p 1 [(0, 2); (710, 730); (799, 800)] [1; 21] = Some (map (batch_of ms_lists true) (groups [1; 21] (flat_map (pick ex_ints) [(0, 2); (710, 730); (799, 800)]))).
Proof.
  apply (packed_lists_ranges ms_lists true ex_ints 4); [apply ex_ints_ok|right; right; left; reflexivity|apply bytes_okb; vm_compute; reflexivity|discriminate|apply ex_ints_runs|apply Nat.leb_le; vm_compute; reflexivity| | |repeat constructor|vm_compute; repeat constructor].
  - apply (forall_b _ (fun r => length r <=? 1024)); [intros x X; apply Nat.leb_le; exact X|vm_compute; reflexivity].
  - change (length ex_ints) with 800. cbn [sorted fst snd]. repeat split; lia.
Qed.
Example ex_packed_scan : exists b p, fixed_blocks 4 (page_vals ex_ints) no_mem = Some (true, b) /\ encode_mini (page_levels ms_lists true ex_ints) (length (page_vals ex_ints)) b = Some p /\
  read_mini (fixed_decode 4 true) p 1 [(0, 800)] [300; 500] = Some (map (batch_of ms_lists true) (groups [300; 500] ex_ints)).
Proof. apply (packed_lists_scan ms_lists true ex_ints 4 no_mem [300; 500] ex_ints_ok); [right; right; left; reflexivity|apply bytes_okb; vm_compute; reflexivity|discriminate|apply ex_ints_runs|apply Nat.leb_le; vm_compute; reflexivity|repeat constructor|reflexivity]. Qed.

(* ---- pages that are not written, or not read ---- *)
(* 512 lists of one integer of 64 bits: zeros are not bit packed, and the writer panics; ones are *)
Definition ones_of (x : N) : list (list item) := map (fun _ => [it 1 0 (Some (le_bytes 8 x))]) (seq 0 512).
Theorem zero_lists_refuted : exists b, mini_ok ms_plain false 1 (ones_of 0) /\ bytes_ok 8 (page_vals (ones_of 0)) /\ fixed_blocks 8 (page_vals (ones_of 0)) no_mem = Some (false, b) /\
  encode_mini (page_levels ms_plain false (ones_of 0)) (length (page_vals (ones_of 0))) b = None.
Proof. eexists. split; [apply mini_okb_ok; vm_compute; reflexivity|]. split; [apply bytes_okb; vm_compute; reflexivity|]. split; vm_compute; reflexivity. Qed.
Example one_lists_written : match fixed_blocks 8 (page_vals (ones_of 1)) no_mem with Some (c, b) => c && is_some (encode_mini (page_levels ms_plain false (ones_of 1)) 512 b) | None => false end = true.
Proof. vm_compute. reflexivity. Qed.
(* an integer and 5000 empty lists: the writer panics *)
Theorem packed_empty_refuted : exists rows b, mini_ok [AllValidItem; EmptyableList] true 1 rows /\ page_vals rows = [le_bytes 4 7%N] /\ fixed_blocks 4 (page_vals rows) no_mem = Some (true, b) /\ encode_mini (page_levels [AllValidItem; EmptyableList] true rows) 1 b = None.
Proof.
  exists ([it 1 0 (Some (le_bytes 4 7%N))] :: repeat [it 1 1 None] (N.to_nat 5000)). eexists. split; [apply mini_okb_ok; vm_compute; reflexivity|]. split; [vm_compute; reflexivity|]. split; vm_compute; reflexivity.
Qed.
(* a list of 2100 integers: the row after it cannot be read alone *)
Definition ex_long_ints : list (list item) := [map (fun n => it (if n =? 0 then 1 else 0) 0 (Some (le_bytes 2 (N.of_nat (n + 1))))) (seq 0 2100); [it 1 0 (Some (le_bytes 2 9%N))]].
Theorem packed_long_row_refuted : exists b p, fixed_blocks 2 (page_vals ex_long_ints) no_mem = Some (true, b) /\ encode_mini (page_levels ms_plain false ex_long_ints) (length (page_vals ex_long_ints)) b = Some p /\ read_mini (fixed_decode 2 true) p 1 [(1, 2)] [1] = None.
Proof.
  assert (C : match fixed_blocks 2 (page_vals ex_long_ints) no_mem with Some (true, b) => match encode_mini (page_levels ms_plain false ex_long_ints) (length (page_vals ex_long_ints)) b with Some p => match read_mini (fixed_decode 2 true) p 1 [(1, 2)] [1] with None => true | _ => false end | None => false end | _ => false end = true) by (vm_compute; reflexivity).
  destruct (fixed_blocks 2 (page_vals ex_long_ints) no_mem) as [[[|] b]|]; try discriminate. exists b. destruct (encode_mini _ _ b) as [p|]; [|discriminate]. exists p. split; [reflexivity|]. split; [reflexivity|]. destruct (read_mini _ p _ _ _); [discriminate|reflexivity].
Qed.
