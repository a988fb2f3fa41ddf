(* Pages of the full-zip layout read whole, examples, and pages that are read wrong. *)
From Coq Require Import List Arith NArith Bool Lia.
From Verif Require Import Lib SerdeModel RepDefModel FullZipModel FullZipProofs FullZipRead FullZipPage FullZipVar.
Import ListNotations.
Local Open Scope nat_scope.

Lemma pick_all : forall A (l : list A), flat_map (pick l) [(0, length l)] = l.
Proof. intros A l. cbn [flat_map]. rewrite app_nil_r. unfold pick. cbn [fst snd skipn]. rewrite Nat.sub_0_r. apply firstn_all. Qed.
(* a page read whole gives the unraveler the levels that were written, if definition levels are written exactly when there are nulls *)
Theorem fixed_whole : forall ms hd ipr rows w, page_ok ms hd ipr rows -> hd = page_nulls rows -> 0 < w -> Forall (fun v => length v = w) (page_vals rows) ->
  (N.of_nat (sumn (map (@length N) (page_vals rows)) + 4 * length (concat rows)) < 18446744073709551616)%N ->
  exists z o, encode_full_zip None (page_levels ms hd rows) (page_vals rows) (length rows) = Some z /\ read_fixed z w ipr [(0, length rows)] [length rows] = Some [o] /\
    batch_levels ms o = page_levels ms hd rows /\ o_vals o = page_vals rows.
Proof.
  intros ms hd ipr rows w OK H W V S. assert (NE : rows <> []) by apply OK. destruct (fixed_page ms hd ipr rows w [(0, length rows)] [length rows] OK W V S) as [z [E R]].
  - constructor; [cbn; lia|constructor].
  - constructor; [destruct rows; [congruence|cbn; lia]|constructor].
  - rewrite pick_all. cbn. lia.
  - exists z. rewrite pick_all in R. cbn [groups map] in R. rewrite firstn_all in R. eexists. split; [exact E|]. split; [exact R|]. split; [|reflexivity]. unfold batch_levels, batch_of, page_levels. cbn [o_rep o_def]. rewrite <- H. reflexivity.
Qed.
(* the same for values of variable width, for pages with lists and nulls *)
Theorem var_whole : forall ms rows k, page_ok ms true 1 rows -> has_lists ms = true -> page_nulls rows = true -> 0 < k ->
  (N.of_nat (sumn (map (@length N) (page_vals rows))) < 2 ^ (8 * N.of_nat k))%N ->
  (N.of_nat (sumn (map (@length N) (page_vals rows)) + (4 + k) * length (concat rows)) < 18446744073709551616)%N ->
  exists z o, encode_full_zip (Some k) (page_levels ms true rows) (page_vals rows) (length rows) = Some z /\ read_var z k [(0, length rows)] [length rows] = Some [o] /\
    batch_levels ms o = page_levels ms true rows /\ o_vals o = flat_map read_val (concat rows).
Proof.
  intros ms rows k OK HL HN K V S. assert (RV : length (concat (flat_map read_val (concat rows))) <= sumn (map (@length N) (page_vals rows))).
  { unfold page_vals. clear. induction (concat rows) as [|it l IH]; [cbn; lia|]. cbn [flat_map]. rewrite concat_app, map_app, sumn_app, app_length. assert (Q : length (concat (read_val it)) <= sumn (map (@length N) (vals_of it))); [|lia]. unfold read_val, vals_of. destruct (i_val it) as [v|]; [|cbn; lia]. cbn [map]. change (sumn [length v]) with (length v + 0). destruct (i_def it =? 0); cbn [concat]; rewrite app_length; cbn [length]; lia. }
  destruct (var_page ms true rows k [(0, length rows)] [length rows] OK K V S) as [z [E R]].
  - constructor; [cbn; lia|constructor].
  - rewrite pick_all. lia.
  - rewrite pick_all. cbn. lia.
  - exists z. rewrite pick_all in R. cbn [groups map] in R. rewrite firstn_all in R. eexists. split; [exact E|]. split; [exact R|]. split; [|reflexivity]. unfold batch_levels, vbatch_of, page_levels. cbn [o_rep o_def]. rewrite HL, HN. reflexivity.
Qed.

(* ---- examples ---- *)
Definition it (r d : nat) (v : option (list N)) : item := {| i_rep := r; i_def := d; i_val := v |}.
(* [1, null], null, [2], null *)
Definition ex_ms := [NullableItem; NullableList].
Definition ex_rows : list (list item) := [[it 1 0 (Some [1; 1; 1]%N); it 0 1 (Some [0; 0; 0]%N)]; [it 1 2 None]; [it 1 0 (Some [2; 2; 2]%N)]; [it 1 2 None]].
Lemma ex_page : page_ok ex_ms true 1 ex_rows.
Proof.
  split; [discriminate|]. split; [lia|]. split.
  { intros a m b E H. unfold ex_ms in E. destruct a as [|x [|y a]]; cbn [app] in E.
    - injection E as <- <-. discriminate H.
    - injection E as <- <- <-. intros [].
    - injection E as _ _ E. destruct a; discriminate E. }
  split; [repeat constructor; discriminate|]. split; [cbn; split; [reflexivity|]; repeat constructor|]. repeat split; try reflexivity; try discriminate.
Qed.
Example ex_fixed : exists z, encode_full_zip None (page_levels ex_ms true ex_rows) (page_vals ex_rows) 4 = Some z /\
  read_fixed z 3 1 [(0, 2); (3, 4); (2, 4)] [1; 3; 1] = Some (map (batch_of ex_ms true) [[nth 0 ex_rows []]; [nth 1 ex_rows []; nth 3 ex_rows []; nth 2 ex_rows []]; [nth 3 ex_rows []]]).
Proof.
  apply (fixed_page ex_ms true 1 ex_rows 3 [(0, 2); (3, 4); (2, 4)] [1; 3; 1] ex_page); [lia|repeat constructor|reflexivity|repeat constructor|repeat constructor|cbn; lia].
Qed.
Definition ex_rows2 : list (list item) := [[it 1 0 (Some [1]%N); it 0 1 (Some [])]; [it 1 2 None]; [it 1 0 (Some [2; 3]%N)]; [it 1 2 None]].
Lemma ex_page2 : page_ok ex_ms true 1 ex_rows2.
Proof. destruct ex_page as (A & B & C & _). split; [discriminate|]. split; [exact B|]. split; [exact C|]. split; [repeat constructor; discriminate|]. split; [cbn; split; [reflexivity|]; repeat constructor|]. repeat split; try reflexivity; try discriminate. Qed.
Example ex_var : exists z, encode_full_zip (Some 4) (page_levels ex_ms true ex_rows2) (page_vals ex_rows2) 4 = Some z /\
  read_var z 4 [(0, 2); (3, 4); (2, 4)] [1; 3; 1] = Some (map (vbatch_of ex_ms true) [[nth 0 ex_rows2 []]; [nth 1 ex_rows2 []; nth 3 ex_rows2 []; nth 2 ex_rows2 []]; [nth 3 ex_rows2 []]]).
Proof.
  apply (var_page ex_ms true ex_rows2 4 [(0, 2); (3, 4); (2, 4)] [1; 3; 1] ex_page2); [lia|reflexivity|reflexivity|repeat constructor|reflexivity|cbn; lia].
Qed.
Example ex_whole : exists z o, encode_full_zip None (page_levels ex_ms true ex_rows) (page_vals ex_rows) 4 = Some z /\ read_fixed z 3 1 [(0, 4)] [4] = Some [o] /\ batch_levels ex_ms o = page_levels ex_ms true ex_rows /\ o_vals o = page_vals ex_rows.
Proof. apply (fixed_whole ex_ms true 1 ex_rows 3 ex_page); [reflexivity|lia|repeat constructor|reflexivity]. Qed.
Example ex_whole2 : exists z o, encode_full_zip (Some 8) (page_levels ex_ms true ex_rows2) (page_vals ex_rows2) 4 = Some z /\ read_var z 8 [(0, 4)] [4] = Some [o] /\ batch_levels ex_ms o = page_levels ex_ms true ex_rows2 /\ o_vals o = [[1]; []; [2; 3]]%N.
Proof. apply (var_whole ex_ms ex_rows2 8 ex_page2); [reflexivity|reflexivity|lia|reflexivity|reflexivity]. Qed.
(* rows of two items without lists, one null *)
Definition ex_flat : list (list item) := [[it 0 0 (Some [1]%N); it 0 1 (Some [9]%N)]; [it 0 0 (Some [2]%N); it 0 0 (Some [3]%N)]; [it 0 0 (Some [4]%N); it 0 0 (Some [5]%N)]].
Example ex_items : exists z, encode_full_zip None (page_levels [NullableItem] true ex_flat) (page_vals ex_flat) 3 = Some z /\
  read_fixed z 1 2 [(1, 3); (0, 1)] [1; 2] = Some (map (batch_of [NullableItem] true) [[nth 1 ex_flat []]; [nth 2 ex_flat []; nth 0 ex_flat []]]).
Proof.
  apply (fixed_page [NullableItem] true 2 ex_flat 1 [(1, 3); (0, 1)] [1; 2]); [|lia|repeat constructor|reflexivity|repeat constructor|repeat constructor|cbn; lia].
  split; [discriminate|]. split; [lia|]. split; [intros a m b E H; destruct a as [|x [|y a]]; cbn [app] in E; [injection E as <- <-; discriminate H|discriminate E|discriminate E]|]. split; [repeat constructor; discriminate|]. split; [cbn; split; repeat constructor|]. split; [reflexivity|]. split; [discriminate|]. intros _ _. split; [cbn; lia|]. apply Exists_cons_tl, Exists_cons_hd. cbn. lia.
Qed.

(* ---- pages that are read wrong ---- *)
(* values of fixed width with a validity but no null: the reader takes the control words for values *)
Theorem fixed_no_nulls_refuted : exists l vals z o, r_rep l = None /\ r_def l = Some [0; 0; 0] /\ r_meaning l = [NullableItem] /\ vals = [[1; 1; 1]; [2; 2; 2]; [3; 3; 3]]%N /\
  encode_full_zip None l vals 3 = Some z /\ read_fixed z 3 1 [(0, 3)] [3] = Some [o] /\ o_vals o = [[0; 1; 1]; [1; 0; 2]; [2; 2; 0]]%N.
Proof.
  set (l := {| r_rep := None; r_def := Some [0; 0; 0]; r_meaning := [NullableItem] |}). set (vals := [[1; 1; 1]; [2; 2; 2]; [3; 3; 3]]%N).
  destruct (encode_full_zip None l vals 3) as [z|] eqn:E; [|vm_compute in E; discriminate]. destruct (read_fixed z 3 1 [(0, 3)] [3]) as [[|o [|]]|] eqn:R; [exfalso| |exfalso|exfalso].
  2: { exists l, vals, z, o. subst l vals. repeat (match goal with |- _ /\ _ => split end); try reflexivity; [exact E|exact R|]. vm_compute in E. injection E as <-. vm_compute in R. injection R as <-. reflexivity. }
  all: subst l vals; vm_compute in E; injection E as <-; vm_compute in R; discriminate.
Qed.
(* lists of values of variable width without nulls cannot be read: empty definition levels meet repetition levels *)
Theorem var_no_nulls_refuted : exists l z o, l = {| r_rep := Some [1; 0; 1]; r_def := None; r_meaning := [AllValidItem; AllValidList] |} /\ encode_full_zip (Some 4) l [[1]; [2; 3]; []]%N 2 = Some z /\
  read_layers [KItem; KList] [new_unraveler l] = Some [GValid None; GList [0; 2; 3] None] /\ read_var z 4 [(0, 2)] [2] = Some [o] /\ read_layers [KItem; KList] [new_unraveler (batch_levels (z_meaning z) o)] = None.
Proof.
  set (l := {| r_rep := Some [1; 0; 1]; r_def := None; r_meaning := [AllValidItem; AllValidList] |}).
  destruct (encode_full_zip (Some 4) l [[1]; [2; 3]; []]%N 2) as [z|] eqn:E; [|vm_compute in E; discriminate]. destruct (read_var z 4 [(0, 2)] [2]) as [[|o [|]]|] eqn:R; [exfalso| |exfalso|exfalso].
  2: { exists l, z, o. repeat (match goal with |- _ /\ _ => split end); [reflexivity|exact E|vm_compute; reflexivity|exact R|]. subst l. vm_compute in E. injection E as <-. vm_compute in R. injection R as <-. vm_compute. reflexivity. }
  all: subst l; vm_compute in E; injection E as <-; vm_compute in R; discriminate.
Qed.
(* a nullable struct above a list: null structs are read as having a value *)
Definition above : levels := {| r_rep := Some [1; 0; 1; 1; 1]; r_def := Some [0; 1; 2; 0; 3]; r_meaning := [NullableItem; NullableList; NullableItem] |}.
Theorem fixed_struct_above_refuted : exists z, encode_full_zip None above [[1; 1; 1]; [0; 0; 0]; [2; 2; 2]]%N 4 = Some z /\ read_fixed z 3 1 [(0, 4)] [4] = None.
Proof.
  destruct (encode_full_zip None above [[1; 1; 1]; [0; 0; 0]; [2; 2; 2]]%N 4) as [z|] eqn:E; [|vm_compute in E; discriminate]. exists z. split; [reflexivity|]. vm_compute in E. injection E as <-. vm_compute. reflexivity.
Qed.
Theorem var_struct_above_refuted : exists z o, encode_full_zip (Some 4) above [[1]; []; [2; 3]]%N 4 = Some z /\ read_var z 4 [(0, 4)] [4] = Some [o] /\ o_vals o = [[1]; []; []; [2; 3]]%N.
Proof.
  destruct (encode_full_zip (Some 4) above [[1]; []; [2; 3]]%N 4) as [z|] eqn:E; [|vm_compute in E; discriminate]. destruct (read_var z 4 [(0, 4)] [4]) as [[|o [|]]|] eqn:R; [exfalso| |exfalso|exfalso].
  2: { exists z, o. split; [reflexivity|]. split; [exact R|]. vm_compute in E. injection E as <-. vm_compute in R. injection R as <-. reflexivity. }
  all: vm_compute in E; injection E as <-; vm_compute in R; discriminate.
Qed.
(* lists with a validity of the items but no nulls cannot be read: there are no definition levels, but the layer may have nulls *)
Theorem fixed_lists_no_nulls_refuted : exists l z o, l = {| r_rep := Some [1; 0; 1]; r_def := Some [0; 0; 0]; r_meaning := [NullableItem; AllValidList] |} /\ encode_full_zip None l [[1]; [2]; [3]]%N 2 = Some z /\
  read_layers [KItem; KList] [new_unraveler l] = Some [GValid (Some [true; true; true]); GList [0; 2; 3] None] /\ read_fixed z 1 1 [(0, 2)] [2] = Some [o] /\ o_vals o = [[1]; [2]; [3]]%N /\
  read_layers [KItem; KList] [new_unraveler (batch_levels (z_meaning z) o)] = None.
Proof.
  set (l := {| r_rep := Some [1; 0; 1]; r_def := Some [0; 0; 0]; r_meaning := [NullableItem; AllValidList] |}).
  destruct (encode_full_zip None l [[1]; [2]; [3]]%N 2) as [z|] eqn:E; [|vm_compute in E; discriminate]. destruct (read_fixed z 1 1 [(0, 2)] [2]) as [[|o [|]]|] eqn:R; [exfalso| |exfalso|exfalso].
  2: { exists l, z, o. assert (Q : o_vals o = [[1]; [2]; [3]]%N /\ read_layers [KItem; KList] [new_unraveler (batch_levels (z_meaning z) o)] = None) by (subst l; vm_compute in E; injection E as <-; vm_compute in R; injection R as <-; split; vm_compute; reflexivity). destruct Q. repeat (match goal with |- _ /\ _ => split end); auto. }
  all: subst l; vm_compute in E; injection E as <-; vm_compute in R; discriminate.
Qed.
(* 256 levels of nullable structs and no list: the writer panics *)
Theorem many_structs_refuted : encode_full_zip None {| r_rep := None; r_def := Some [256; 0]; r_meaning := repeat NullableItem 256 |} [[1]; [2]]%N 2 = None.
Proof. vm_compute. reflexivity. Qed.
