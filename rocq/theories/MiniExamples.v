(* Pages of the mini-block layout read whole, examples, and pages that are not written or not read. *)
From Coq Require Import List Arith NArith ZArith Bool Lia.
From Verif Require Import Lib SerdeModel RepDefModel FullZipModel FullZipProofs FullZipRead FullZipPage FullZipVar FullZipExamples MiniModel MiniProofs MiniSched MiniBytes MiniPage MiniRead MiniString.
Import ListNotations.
Local Open Scope nat_scope.

Lemma whole_groups : forall (rows : list (list item)), groups [length rows] rows = [rows].
Proof. intros rows. cbn [groups]. rewrite firstn_all. reflexivity. Qed.
(* a page read whole gives the unraveler the levels and the values that were written *)
Theorem value_whole : forall ms hd ipr rows w, mini_ok ms hd ipr rows -> 0 < w -> (N.of_nat (2 * w) < 8186)%N -> Forall (fun v => length v = w) (page_vals rows) -> writable ms w rows ->
  exists b p o, value_blocks w (page_vals rows) = Some b /\ encode_mini (page_levels ms hd rows) (length (page_vals rows)) b = Some p /\
    read_mini (value_decode w) p ipr [(0, length rows)] [length rows] = Some [o] /\ batch_levels ms o = page_levels ms hd rows /\ o_vals o = page_vals rows.
Proof.
  intros ms hd ipr rows w OK W W2 VW WR. assert (NE : rows <> []) by apply OK. destruct (value_per w W2) as [g [per VP]]. destruct (value_pages ms hd ipr rows w g per OK W VW VP WR) as [b [ps [p (A & B & C & D & E & F & G)]]].
  exists b, p, (batch_of ms hd rows). split; [exact A|]. split; [exact B|]. split; [|split; [reflexivity|reflexivity]]. rewrite C in B. rewrite (mini_scan ms hd ipr rows (value_decode w) ps p [length rows] OK D E F B); [rewrite whole_groups; reflexivity| |cbn; lia]. constructor; [|constructor]. destruct rows; [congruence|cbn; lia].
Qed.
Theorem string_whole : forall ms hd ipr rows, mini_ok ms hd ipr rows -> page_vals rows <> [] -> Forall (fun v => length v < 256) (page_vals rows) -> (has_lists ms = true -> length (concat rows) <= length (page_vals rows) + 2000) ->
  exists p o, encode_mini (page_levels ms hd rows) (length (page_vals rows)) (binary_blocks (sums 0 (page_vals rows)) (concat (page_vals rows))) = Some p /\
    read_mini binary_decode p ipr [(0, length rows)] [length rows] = Some [o] /\ batch_levels ms o = page_levels ms hd rows /\ o_vals o = page_vals rows.
Proof.
  intros ms hd ipr rows OK NV NA RM. assert (NE : rows <> []) by apply OK. destruct (string_pages ms hd ipr rows OK NV NA RM) as [ps [p (B & C & D & E & F & G)]].
  exists p, (batch_of ms hd rows). split; [exact B|]. split; [|split; [reflexivity|reflexivity]]. rewrite C in B. rewrite (mini_scan ms hd ipr rows binary_decode ps p [length rows] OK D E F B); [rewrite whole_groups; reflexivity| |cbn; lia]. constructor; [|constructor]. destruct rows; [congruence|cbn; lia].
Qed.

(* ---- examples: more than one chunk ---- *)
Lemma forall_b : forall A (f : A -> bool) (P : A -> Prop) l, (forall x, f x = true -> P x) -> forallb f l = true -> Forall P l.
Proof. intros A f P l H F. apply Forall_forall. intros x X. apply H. rewrite forallb_forall in F. apply F, X. Qed.
Definition item_okb (ms : list meaning) (hd : bool) (x : item) : bool := (i_def x <=? total_levels ms) && Bool.eqb (is_some (i_val x)) (i_def x <=? inner_levels ms) && (hd || (i_def x =? 0)).
Definition row_okb (L : nat) (r : list item) : bool := match r with x :: t => (i_rep x =? L) && forallb (fun y => i_rep y <? L) t && forallb (fun y => is_some (i_val y)) t | [] => false end.
Definition mini_okb (ms : list meaning) (hd : bool) (ipr : nat) (rows : list (list item)) : bool :=
  negb (length rows =? 0) && (0 <? ipr) && forallb (item_okb ms hd) (concat rows) &&
  (if has_lists ms then (ipr =? 1) && forallb (row_okb (lists ms)) rows else forallb (fun r => length r =? ipr) rows && forallb (fun x => i_rep x =? 0) (concat rows)) &&
  (N.of_nat (total_levels ms + lists ms) <? 65536)%N && (N.of_nat (length (concat rows) + 1) <? 18446744073709551616)%N.
Lemma mini_okb_ok : forall ms hd ipr rows, mini_okb ms hd ipr rows = true -> mini_ok ms hd ipr rows.
Proof.
  intros ms hd ipr rows H. unfold mini_okb in H. apply andb_true_iff in H as [H H6]. apply andb_true_iff in H as [H H5]. apply andb_true_iff in H as [H H4]. apply andb_true_iff in H as [H H3]. apply andb_true_iff in H as [H1 H2].
  split; [destruct rows; [discriminate|discriminate]|]. split; [apply Nat.ltb_lt; exact H2|]. split; [|split; [|split; apply N.ltb_lt; assumption]].
  - eapply forall_b; [|exact H3]. intros x X. unfold item_okb in X. apply andb_true_iff in X as [X X3]. apply andb_true_iff in X as [X1 X2]. split; [apply Nat.leb_le; exact X1|]. split; [apply eqb_prop; exact X2|]. intros ->. apply Nat.eqb_eq. exact X3.
  - destruct (has_lists ms); apply andb_true_iff in H4 as [A B].
    + split; [apply Nat.eqb_eq; exact A|]. split; (eapply forall_b; [|exact B]); intros [|x t] X; try discriminate X; cbn [row_okb] in X; apply andb_true_iff in X as [X X3]; apply andb_true_iff in X as [X1 X2].
      * split; [apply Nat.eqb_eq; exact X1|]. eapply forall_b; [|exact X2]. intros y Y. apply Nat.ltb_lt. exact Y.
      * cbn [tl]. eapply forall_b; [|exact X3]. intros y Y Q. cbv beta in Y. rewrite Q in Y. discriminate Y.
    + split; (eapply forall_b; [|eassumption]); intros x X; apply Nat.eqb_eq; exact X.
Qed.
Definition v16 (n : nat) : list N := repeat (N.of_nat n) 16.
Lemma width16 : forall l, forallb (fun v : list N => length v =? 16) l = true -> Forall (fun v => length v = 16) l.
Proof. intros l H. eapply forall_b; [|exact H]. intros v V. apply Nat.eqb_eq. exact V. Qed.
(* 300 values of 16 bytes, every seventh null: chunks of 256 and 44 *)
Definition ex_nulls : list (list item) := map (fun n => [it 0 (if n mod 7 =? 0 then 1 else 0) (Some (v16 n))]) (seq 0 300).
Example ex_value_flat : exists b p, value_blocks 16 (page_vals ex_nulls) = Some b /\ encode_mini (page_levels [NullableItem] true ex_nulls) (length (page_vals ex_nulls)) b = Some p /\
  read_mini (value_decode 16) p 1 [(3, 4); (250, 260); (299, 300)] [5; 7] = Some (map (batch_of [NullableItem] true) (groups [5; 7] (flat_map (pick ex_nulls) [(3, 4); (250, 260); (299, 300)]))).
Proof.
  apply (value_flat [NullableItem] true 1 ex_nulls 16); [apply mini_okb_ok; vm_compute; reflexivity|reflexivity|lia|reflexivity|apply width16; vm_compute; reflexivity| |repeat constructor|vm_compute; repeat constructor].
  change (length ex_nulls) with 300. cbn [sorted fst snd]. repeat split; lia.
Qed.
(* 200 lists of up to three values, with nulls, empty lists and null lists; 300 - 34 values *)
Definition ex_lists : list (list item) :=
  map (fun n => if n mod 7 =? 0 then [it 1 2 None] else if n mod 7 =? 3 then [it 1 3 None] else [it 1 0 (Some (v16 n)); it 0 (n mod 2) (Some (v16 (n + 1)))]) (seq 0 200).
Definition ms_lists := [NullableItem; NullableAndEmptyableList].
Lemma ex_lists_ok : mini_ok ms_lists true 1 ex_lists.
Proof. apply mini_okb_ok. vm_compute. reflexivity. Qed.
Lemma ex_lists_writable : writable ms_lists 16 ex_lists.
Proof. intros _. exists 8, 256. split; [vm_compute; reflexivity|]. split; [vm_compute; discriminate|]. apply Nat.leb_le. vm_compute. reflexivity. Qed.
Example ex_value_lists : exists b p, value_blocks 16 (page_vals ex_lists) = Some b /\ encode_mini (page_levels ms_lists true ex_lists) (length (page_vals ex_lists)) b = Some p /\
  read_mini (value_decode 16) p 1 [(0, 2); (178, 182); (199, 200)] [1; 6] = Some (map (batch_of ms_lists true) (groups [1; 6] (flat_map (pick ex_lists) [(0, 2); (178, 182); (199, 200)]))).
Proof.
  apply (value_lists_ranges ms_lists true ex_lists 16 8 256); [apply ex_lists_ok|lia|vm_compute; reflexivity|apply width16; vm_compute; reflexivity|apply ex_lists_writable| | |repeat constructor|vm_compute; repeat constructor].
  - apply (forall_b _ (fun r => length r <=? 256)); [intros x X; apply Nat.leb_le; exact X|vm_compute; reflexivity].
  - change (length ex_lists) with 200. cbn [sorted fst snd]. repeat split; lia.
Qed.
Example ex_value_whole : exists b p o, value_blocks 16 (page_vals ex_lists) = Some b /\ encode_mini (page_levels ms_lists true ex_lists) (length (page_vals ex_lists)) b = Some p /\
  read_mini (value_decode 16) p 1 [(0, 200)] [200] = Some [o] /\ batch_levels ms_lists o = page_levels ms_lists true ex_lists /\ o_vals o = page_vals ex_lists.
Proof. apply (value_whole ms_lists true 1 ex_lists 16 ex_lists_ok); [lia|reflexivity|apply width16; vm_compute; reflexivity|apply ex_lists_writable]. Qed.
(* a row of 600 values over three chunks, and one of one value: read whole, in batches *)
Definition ex_long : list (list item) := [map (fun n => it (if n =? 0 then 1 else 0) 0 (Some (v16 n))) (seq 0 600); [it 1 0 (Some (v16 1))]].
Definition ms_plain := [AllValidItem; AllValidList].
Lemma ex_long_ok : mini_ok ms_plain false 1 ex_long.
Proof. apply mini_okb_ok. vm_compute. reflexivity. Qed.
Lemma ex_long_writable : writable ms_plain 16 ex_long.
Proof. intros _. exists 8, 256. split; [vm_compute; reflexivity|]. split; [vm_compute; discriminate|]. apply Nat.leb_le. vm_compute. reflexivity. Qed.
Example ex_value_scan : exists b p, value_blocks 16 (page_vals ex_long) = Some b /\ encode_mini (page_levels ms_plain false ex_long) (length (page_vals ex_long)) b = Some p /\
  read_mini (value_decode 16) p 1 [(0, 2)] [1; 1] = Some (map (batch_of ms_plain false) (groups [1; 1] ex_long)).
Proof. apply (value_lists_scan ms_plain false ex_long 16 [1; 1] ex_long_ok); [lia|reflexivity|apply width16; vm_compute; reflexivity|apply ex_long_writable|repeat constructor|reflexivity]. Qed.
(* strings *)
Definition str (n : nat) : list N := repeat (N.of_nat n) (n mod 200).
Lemma narrow : forall l, forallb (fun v : list N => length v <? 256) l = true -> Forall (fun v => length v < 256) l.
Proof. intros l H. eapply forall_b; [|exact H]. intros v V. apply Nat.ltb_lt. exact V. Qed.
Definition ex_strs : list (list item) := map (fun n => [it 0 (if n mod 7 =? 0 then 1 else 0) (Some (str n))]) (seq 0 100).
Example ex_string_flat : exists p, encode_mini (page_levels [NullableItem] true ex_strs) (length (page_vals ex_strs)) (binary_blocks (sums 0 (page_vals ex_strs)) (concat (page_vals ex_strs))) = Some p /\
  read_mini binary_decode p 1 [(3, 4); (60, 70); (99, 100)] [5; 7] = Some (map (batch_of [NullableItem] true) (groups [5; 7] (flat_map (pick ex_strs) [(3, 4); (60, 70); (99, 100)]))).
Proof.
  apply (string_flat [NullableItem] true 1 ex_strs); [apply mini_okb_ok; vm_compute; reflexivity|reflexivity|apply narrow; vm_compute; reflexivity| |repeat constructor|vm_compute; repeat constructor].
  change (length ex_strs) with 100. cbn [sorted fst snd]. repeat split; lia.
Qed.
Definition ex_strlists : list (list item) :=
  map (fun n => if n mod 7 =? 0 then [it 1 2 None] else if n mod 7 =? 3 then [it 1 3 None] else [it 1 0 (Some (str n)); it 0 (n mod 2) (Some (str (n + 1)))]) (seq 0 100).
Lemma ex_strlists_ok : mini_ok ms_lists true 1 ex_strlists.
Proof. apply mini_okb_ok. vm_compute. reflexivity. Qed.
Example ex_string_lists : exists p, encode_mini (page_levels ms_lists true ex_strlists) (length (page_vals ex_strlists)) (binary_blocks (sums 0 (page_vals ex_strlists)) (concat (page_vals ex_strlists))) = Some p /\
  read_mini binary_decode p 1 [(0, 2); (50, 80); (99, 100)] [1; 31] = Some (map (batch_of ms_lists true) (groups [1; 31] (flat_map (pick ex_strlists) [(0, 2); (50, 80); (99, 100)]))).
Proof.
  apply (string_lists_ranges ms_lists true ex_strlists); [apply ex_strlists_ok|discriminate|apply narrow; vm_compute; reflexivity|apply Nat.leb_le; vm_compute; reflexivity| | |repeat constructor|vm_compute; repeat constructor].
  - apply (forall_b _ (fun r => length r <=? 8)); [intros x X; apply Nat.leb_le; exact X|vm_compute; reflexivity].
  - change (length ex_strlists) with 100. cbn [sorted fst snd]. repeat split; lia.
Qed.
Example ex_string_scan : exists p, encode_mini (page_levels ms_lists true ex_strlists) (length (page_vals ex_strlists)) (binary_blocks (sums 0 (page_vals ex_strlists)) (concat (page_vals ex_strlists))) = Some p /\
  read_mini binary_decode p 1 [(0, 100)] [30; 70] = Some (map (batch_of ms_lists true) (groups [30; 70] ex_strlists)).
Proof. apply (string_lists_scan ms_lists true ex_strlists [30; 70] ex_strlists_ok); [discriminate|apply narrow; vm_compute; reflexivity|apply Nat.leb_le; vm_compute; reflexivity|repeat constructor|reflexivity]. Qed.
Example ex_string_whole : exists p o, encode_mini (page_levels ms_lists true ex_strlists) (length (page_vals ex_strlists)) (binary_blocks (sums 0 (page_vals ex_strlists)) (concat (page_vals ex_strlists))) = Some p /\
  read_mini binary_decode p 1 [(0, 100)] [100] = Some [o] /\ batch_levels ms_lists o = page_levels ms_lists true ex_strlists /\ o_vals o = page_vals ex_strlists.
Proof. apply (string_whole ms_lists true 1 ex_strlists ex_strlists_ok); [discriminate|apply narrow; vm_compute; reflexivity|intros _; apply Nat.leb_le; vm_compute; reflexivity]. Qed.

(* ---- pages that are not written, or not read ---- *)
(* lists of as many values as whole chunks hold: the last chunk is empty and the writer panics *)
Theorem full_chunks_refuted : exists rows b, mini_ok ms_plain false 1 rows /\ Forall (fun v => length v = 16) (page_vals rows) /\ length rows = 256 /\
  value_blocks 16 (page_vals rows) = Some b /\ encode_mini (page_levels ms_plain false rows) (length (page_vals rows)) b = None.
Proof.
  exists (map (fun n => [it 1 0 (Some (v16 n))]) (seq 0 256)). eexists. split; [apply mini_okb_ok; vm_compute; reflexivity|]. split; [apply width16; vm_compute; reflexivity|]. split; [reflexivity|]. split; [reflexivity|]. vm_compute. reflexivity.
Qed.
(* many empty lists: a chunk does not fit and the writer panics *)
Theorem empty_lists_refuted : exists rows b, mini_ok [AllValidItem; EmptyableList] true 1 rows /\ page_vals rows = [v16 7] /\ value_blocks 16 (page_vals rows) = Some b /\ encode_mini (page_levels [AllValidItem; EmptyableList] true rows) 1 b = None.
Proof.
  exists ([it 1 0 (Some (v16 7))] :: repeat [it 1 1 None] (N.to_nat 5000)). eexists. split; [apply mini_okb_ok; vm_compute; reflexivity|]. split; [vm_compute; reflexivity|]. split; [reflexivity|]. vm_compute. reflexivity.
Qed.
(* a row that fills a chunk: the row after it cannot be read alone *)
Theorem long_row_refuted : exists b p, value_blocks 16 (page_vals ex_long) = Some b /\ encode_mini (page_levels ms_plain false ex_long) (length (page_vals ex_long)) b = Some p /\ read_mini (value_decode 16) p 1 [(1, 2)] [1] = None.
Proof.
  assert (C : match value_blocks 16 (page_vals ex_long) with Some b => match encode_mini (page_levels ms_plain false ex_long) (length (page_vals ex_long)) b with Some p => match read_mini (value_decode 16) p 1 [(1, 2)] [1] with None => true | _ => false end | None => false end | None => false end = true) by (vm_compute; reflexivity).
  destruct (value_blocks 16 (page_vals ex_long)) as [b|]; [|discriminate]. exists b. destruct (encode_mini _ _ b) as [p|]; [|discriminate]. exists p. split; [reflexivity|]. split; [reflexivity|]. destruct (read_mini _ p _ _ _); [discriminate|reflexivity].
Qed.
(* a row over several chunks taken twice: its chunks were dropped *)
Theorem twice_refuted : exists b p, value_blocks 16 (page_vals ex_long) = Some b /\ encode_mini (page_levels ms_plain false ex_long) (length (page_vals ex_long)) b = Some p /\ read_mini (value_decode 16) p 1 [(0, 1); (0, 1)] [2] = None.
Proof.
  assert (C : match value_blocks 16 (page_vals ex_long) with Some b => match encode_mini (page_levels ms_plain false ex_long) (length (page_vals ex_long)) b with Some p => match read_mini (value_decode 16) p 1 [(0, 1); (0, 1)] [2] with None => true | _ => false end | None => false end | None => false end = true) by (vm_compute; reflexivity).
  destruct (value_blocks 16 (page_vals ex_long)) as [b|]; [|discriminate]. exists b. destruct (encode_mini _ _ b) as [p|]; [|discriminate]. exists p. split; [reflexivity|]. split; [reflexivity|]. destruct (read_mini _ p _ _ _); [discriminate|reflexivity].
Qed.
(* [[1], []], [[2]]: an empty list that does not start a row is counted as a value *)
Definition nested : levels := {| r_rep := Some [2; 1; 2]; r_def := Some [0; 1; 0]; r_meaning := [AllValidItem; EmptyableList; AllValidList] |}.
Theorem nested_empty_refuted : exists b p, value_blocks 16 [v16 1; v16 2] = Some b /\ encode_mini nested 2 b = Some p /\ read_mini (value_decode 16) p 1 [(0, 2)] [2] = None /\
  read_layers [KItem; KList; KList] [new_unraveler nested] = Some [GValid None; GList [0; 1; 1; 2] None; GList [0; 2; 3] None].
Proof.
  destruct (value_blocks 16 [v16 1; v16 2]) as [b|] eqn:A; [|discriminate]. destruct (encode_mini nested 2 b) as [p|] eqn:B; [|vm_compute in A; injection A as <-; vm_compute in B; discriminate].
  exists b, p. split; [reflexivity|]. split; [exact B|]. split; [|vm_compute; reflexivity]. vm_compute in A. injection A as <-. vm_compute in B. injection B as <-. vm_compute. reflexivity.
Qed.
(* strings too long for two in a chunk, with the layout asked for: the levels of all go to the first chunk *)
Theorem long_strings_refuted : exists vals p, vals = [repeat 1%N (N.to_nat 5000); [2]%N] /\ encode_mini {| r_rep := None; r_def := Some [0; 0]; r_meaning := [NullableItem] |} 2 (binary_blocks (sums 0 vals) (concat vals)) = Some p /\
  read_mini binary_decode p 1 [(0, 1)] [1] <> None /\ read_mini binary_decode p 1 [(1, 2)] [1] = None.
Proof.
  set (vals := [repeat 1%N (N.to_nat 5000); [2]%N]). set (l := {| r_rep := None; r_def := Some [0; 0]; r_meaning := [NullableItem] |}).
  assert (C : match encode_mini l 2 (binary_blocks (sums 0 vals) (concat vals)) with Some p => match read_mini binary_decode p 1 [(0, 1)] [1], read_mini binary_decode p 1 [(1, 2)] [1] with Some _, None => true | _, _ => false end | None => false end = true) by (vm_compute; reflexivity).
  exists vals. destruct (encode_mini l 2 (binary_blocks (sums 0 vals) (concat vals))) as [p|]; [|discriminate]. exists p. split; [reflexivity|]. split; [reflexivity|]. destruct (read_mini binary_decode p 1 [(0, 1)] [1]); [|discriminate]. split; [discriminate|]. destruct (read_mini binary_decode p 1 [(1, 2)] [1]); [discriminate|reflexivity].
Qed.
