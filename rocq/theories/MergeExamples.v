(* Cases meeting the hypotheses of the theorems about UPDATE and MERGE INSERT, and cases
   in which the tables differ from what was asked for. *)
From Coq Require Import List Arith NArith ZArith Bool Lia Permutation.
From Verif Require Import Lib AMap SerdeModel DeletionModel DeletionSpec DeletionProofs MergeModel MergeSpec MergeProofs MergeProofs2.
Import ListNotations.
Local Open Scope N_scope.

Definition fr (id : N) (rows : list row) (d : dv) (ids : option (list N)) : tfrag :=
  {| tf_id := id; tf_rows := rows; tf_del := d; tf_ids := ids |}.
Definition r2 (a b : Z) : row := [Some a; Some b].
Definition col (c : nat) (r : row) : cell := nth c r None.
Definition always (r : row) : option bool := Some true.
Definition col_is (c : nat) (z : Z) (r : row) : option bool := option_map (Z.eqb z) (nth c r None).
Definition prm on m i s : params := {| p_on := on; p_matched := m; p_insert := i; p_source := s |}.

Ltac tok := split; [cbn; repeat split; intros; repeat match goal with H : _ \/ _ |- _ => destruct H end; subst; (lia || contradiction)
  |intros ? Hf; cbn in Hf; repeat match goal with H : _ \/ _ |- _ => destruct H end; try contradiction; subst; (constructor; cbn;
     [reflexivity|discriminate|try exact I; repeat constructor; cbn; try tauto; try lia|unfold dv_has; cbn; intros; repeat match goal with H : _ \/ _ |- _ => destruct H end; try contradiction; subst; reflexivity])].
Ltac addrd := intros ? Hf; cbn in Hf; repeat match goal with H : _ \/ _ |- _ => destruct H end; try contradiction; subst; reflexivity.
Ltac wrote := split; [reflexivity|intros ? Hf; cbn in Hf; repeat match goal with H : _ \/ _ |- _ => destruct H end; try contradiction; subst; reflexivity].

(* ---- UPDATE ---- *)
Definition tbl1 : table := [fr 0 [r2 1 10; r2 2 20] (DSet [0]) None; fr 3 [r2 3 30; r2 4 40; r2 5 50] NoDel None].
Definition ups1 : list (nat * (row -> cell)) := [(1%nat, fun r => option_map Z.succ (nth 0 r None))].
Definition cond1 (r : row) : option bool := option_map (fun z => negb (Z.eqb z 4)) (nth 0 r None).
Example update_ex : table_ok tbl1 /\ addressed tbl1 /\ NoDup (map fst ups1) /\ reads_only_own ups1 /\
  (forall r, In r (contents tbl1) -> forall c, In c (map fst ups1) -> (c < length r)%nat) /\
  written (update_output cond1 ups1 tbl1) [fr 4 [r2 2 3; r2 3 4; r2 5 6] NoDel None] /\
  option_map contents (update_table cond1 tbl1 [fr 4 [r2 2 3; r2 3 4; r2 5 6] NoDel None]) = Some [r2 4 40; r2 2 3; r2 3 4; r2 5 6].
Proof.
  split; [tok|]. split; [addrd|]. split; [repeat constructor; cbn; tauto|]. split.
  { intros c f [E|[]] r r' L H. injection E as <- <-. cbn. rewrite (H 0%nat); auto. right. cbn. lia. }
  split.
  { intros r Hr c [<-|[]]. cbn in Hr. repeat destruct Hr as [<-|Hr]; cbn; try lia; contradiction. }
  split; [wrote|]. vm_compute. reflexivity.
Qed.

(* SET a = b, b = a: the second assignment sees the first *)
Definition swap : list (nat * (row -> cell)) := [(0%nat, col 1); (1%nat, col 0)].
Definition one : table := [fr 0 [r2 1 2] NoDel None].
Theorem update_swap_refuted : exists ups t new t', table_ok t /\ addressed t /\ NoDup (map fst ups) /\
  (forall r, In r (contents t) -> forall c, In c (map fst ups) -> (c < length r)%nat) /\
  written (update_output always ups t) new /\ update_table always t new = Some t' /\
  ~ Permutation (contents t') (updated always ups (contents t)).
Proof.
  exists swap, one, [fr 1 [r2 2 2] NoDel None], [fr 1 [r2 2 2] NoDel None].
  split; [tok|]. split; [addrd|]. split; [repeat constructor; cbn; lia|]. split.
  { intros r [<-|[]] c [<-|[<-|[]]]; cbn; lia. }
  split; [wrote|]. split; [vm_compute; reflexivity|].
  intros P. apply Permutation_in with (x := r2 2 2) in P; [|now left]. vm_compute in P. destruct P as [P|[]]. discriminate.
Qed.
(* and the result depends on the order in which the assignments are iterated *)
Theorem update_order_refuted : exists ups ups' r, Permutation ups ups' /\ NoDup (map fst ups) /\ apply_updates ups r <> apply_updates ups' r /\
  apply_updates ups r <> set_row ups r /\ apply_updates ups' r <> set_row ups r.
Proof.
  exists swap, (rev swap), (r2 1 2). split; [apply Permutation_rev|]. split; [repeat constructor; cbn; lia|].
  split; [|split]; vm_compute; discriminate.
Qed.

(* stable row ids: the deleted ids are read as addresses *)
Definition tbl_s : table := [fr 0 [r2 1 10; r2 2 20] NoDel (Some [0; 1]); fr 1 [r2 3 30; r2 4 40] NoDel (Some [2; 3])].
Definition set1 : list (nat * (row -> cell)) := [(1%nat, fun _ => Some 0%Z)].
Theorem update_stable_refuted : exists cond ups t new t', table_ok t /\ stable_ok t /\ NoDup (map fst ups) /\ reads_only_own ups /\
  written (update_output cond ups t) new /\ update_table cond t new = Some t' /\
  (exists r, In r (contents t) /\ cond r = Some true /\ ~ In r (updated cond ups (contents t)) /\ In r (contents t')) /\ ~ table_ok t'.
Proof.
  exists (col_is 0 3), set1, tbl_s, [fr 2 [r2 3 0] NoDel (Some [4])].
  exists [fr 0 [r2 1 10; r2 2 20] (DSet [2]) (Some [0; 1]); fr 1 [r2 3 30; r2 4 40] NoDel (Some [2; 3]); fr 2 [r2 3 0] NoDel (Some [4])].
  split; [tok|]. split.
  { split; [|cbn; repeat constructor; cbn; lia]. intros f [<-|[<-|[]]]; eexists; split; reflexivity. }
  split; [repeat constructor; cbn; tauto|]. split; [intros c f [E|[]] r r' _ _; injection E as <- <-; reflexivity|].
  split; [wrote|]. split; [vm_compute; reflexivity|]. split.
  - exists (r2 3 30). split; [vm_compute; tauto|]. split; [reflexivity|]. split; [|vm_compute; tauto].
    vm_compute. intros H. repeat destruct H as [H|H]; try discriminate; contradiction.
  - intros [_ F]. destruct (F _ (or_introl eq_refl)) as [_ _ _ B]. specialize (B 2 ltac:(now left)). cbn in B. discriminate.
Qed.
(* several such rows: the statement fails *)
Theorem update_stable_fails_refuted : exists cond t, table_ok t /\ stable_ok t /\ forall new, update_table cond t new = None.
Proof.
  exists (fun r => option_map (fun z => (2 <? z)%Z) (nth 0 r None)), tbl_s. split; [tok|]. split.
  { split; [|cbn; repeat constructor; cbn; lia]. intros f [<-|[<-|[]]]; eexists; split; reflexivity. }
  intros new. vm_compute. reflexivity.
Qed.
(* after a compaction stable row ids need not be in scan order: the statement fails *)
Definition tbl_c : table := [fr 2 [r2 3 30] NoDel (Some [2]); fr 5 [r2 1 10; r2 2 20] NoDel (Some [0; 1])].
Theorem update_unordered_fails_refuted : exists t, table_ok t /\ stable_ok t /\ forall new, update_table always t new = None.
Proof.
  exists tbl_c. split; [tok|]. split.
  { split; [|cbn; repeat constructor; cbn; lia]. intros f [<-|[<-|[]]]; eexists; split; reflexivity. }
  intros new. vm_compute. reflexivity.
Qed.

(* ---- MERGE INSERT, whole rows ---- *)
Definition upsert := prm [0%nat] UpdateAll true Keep.
Definition sync := prm [0%nat] (UpdateIf (fun s t => match nth 1 s None, nth 1 t None with Some a, Some b => Some (b <? a)%Z | _, _ => None end)) true
                       (DeleteIf (fun t => option_map (Z.ltb 35) (nth 1 t None))).
Definition src1 : list row := [r2 2 21; r2 3 29; r2 9 90].
Definition join1 : list (list jrow) := [full_join false [0%nat] src1 (scan tbl1)].
Definition new1 : list tfrag := [fr 4 [r2 2 21; r2 9 90] NoDel None].
Example merge_ex : table_ok tbl1 /\ addressed tbl1 /\ visible sync src1 /\ visible sync (contents tbl1) /\
  Permutation (concat join1) (full_join false (p_on sync) src1 (scan tbl1)) /\
  written (map fst (out_rows sync 2 join1)) new1 /\
  option_map contents (merge_table sync 2 tbl1 join1 new1) = Some [r2 3 30; r2 2 21; r2 9 90] /\
  out_stats sync 2 join1 = {| st_inserted := 1; st_updated := 1; st_deleted := 2 |}.
Proof.
  split; [tok|]. split; [addrd|]. split; [|split].
  1,2: intros r Hr; exists 0%nat; split; [cbn; lia|]; cbn in Hr; repeat destruct Hr as [<-|Hr]; try contradiction; discriminate.
  split; [unfold join1; cbn [concat]; rewrite app_nil_r; apply Permutation_refl|].
  split; [wrote|]. split; vm_compute; reflexivity.
Qed.

(* the statement of C86 for one merge *)
Definition merge_wrong (p : params) (src : list row) (t t' : table) : Prop :=
  exists bs new, Permutation (concat bs) (full_join false (p_on p) src (scan t)) /\ written (map fst (out_rows p 2 bs)) new /\
    merge_table p 2 t bs new = Some t' /\ ~ Permutation (contents t') (merged p src (contents t)).
Definition keys_ok (p : params) (rows : list row) : Prop :=
  (forall r c, In r rows -> In c (p_on p) -> nth c r None <> None) /\
  (forall i j a b, nth_error rows i = Some a -> nth_error rows j = Some b -> i <> j -> same_key (p_on p) a b = false).

(* the key is not the first column, and the first column of a matched source row is null:
   the target row is deleted and nothing replaces it *)
Theorem merge_hidden_refuted : exists p src t, table_ok t /\ addressed t /\ keys_ok p src /\ keys_ok p (contents t) /\
  merge_wrong p src t [] /\ merged p src (contents t) = src /\ src <> [].
Proof.
  exists (prm [1%nat] UpdateAll true DeleteAll), [[None; Some 1%Z]], [fr 0 [r2 5 1] NoDel None].
  split; [tok|]. split; [addrd|]. split; [|split].
  1,2: split; [intros r c [<-|[]] [<-|[]]; discriminate|intros [|[|i]] [|[|j]] a b; cbn; intros Ha Hb; try discriminate; intros D; congruence].
  split; [|split; [vm_compute; reflexivity|discriminate]].
  exists [full_join false [1%nat] [[None; Some 1%Z]] (scan [fr 0 [r2 5 1] NoDel None])], [].
  split; [cbn [concat]; rewrite app_nil_r; apply Permutation_refl|]. split; [wrote|]. split; [vm_compute; reflexivity|].
  intros P. apply Permutation_length in P. vm_compute in P. discriminate.
Qed.
(* a source row with a null key is matched with nothing, and not inserted *)
Theorem merge_null_key_refuted : exists p src t t', table_ok t /\ addressed t /\ p_insert p = true /\
  merge_wrong p src t t' /\ contents t' = contents t /\ exists s, In s src /\ forall r, In r (contents t) -> same_key (p_on p) s r = false.
Proof.
  exists upsert, [[None; Some 7%Z]], [fr 0 [r2 5 1] NoDel None], [fr 0 [r2 5 1] NoDel None].
  split; [tok|]. split; [addrd|]. split; [reflexivity|]. split; [|split; [reflexivity|]].
  - exists [full_join false [0%nat] [[None; Some 7%Z]] (scan [fr 0 [r2 5 1] NoDel None])], [].
    split; [cbn [concat]; rewrite app_nil_r; apply Permutation_refl|]. split; [wrote|]. split; [vm_compute; reflexivity|].
    intros P. apply Permutation_length in P. vm_compute in P. discriminate.
  - eexists. split; [now left|]. intros r [<-|[]]. reflexivity.
Qed.
(* stable row ids: the old version of the row stays *)
Theorem merge_stable_refuted : exists p src t t', table_ok t /\ stable_ok t /\ keys_ok p src /\ keys_ok p (contents t) /\ visible p src /\ visible p (contents t) /\
  merge_wrong p src t t' /\ ~ keys_ok p (contents t').
Proof.
  exists upsert, [r2 3 0], tbl_s, [fr 0 [r2 1 10; r2 2 20] (DSet [2]) (Some [0; 1]); fr 1 [r2 3 30; r2 4 40] NoDel (Some [2; 3]); fr 2 [r2 3 0] NoDel (Some [4])].
  split; [tok|]. split.
  { split; [|cbn; repeat constructor; cbn; lia]. intros f [<-|[<-|[]]]; eexists; split; reflexivity. }
  split.
  { split; [intros r c [<-|[]] [<-|[]]; discriminate|intros [|[|i]] [|[|j]] a b; cbn; intros Ha Hb; try discriminate; intros D; congruence]. }
  split.
  { split.
    - intros r c Hr [<-|[]]. cbn in Hr. repeat destruct Hr as [<-|Hr]; try contradiction; discriminate.
    - intros i j a b Ha Hb D. cbn in Ha, Hb.
      destruct i as [|[|[|[|[|i]]]]], j as [|[|[|[|[|j]]]]]; cbn in Ha, Hb; try discriminate; try congruence; injection Ha as <-; injection Hb as <-; reflexivity. }
  split; [|split].
  1,2: intros r Hr; exists 0%nat; split; [cbn; lia|]; cbn in Hr; repeat destruct Hr as [<-|Hr]; try contradiction; discriminate.
  split.
  - exists [full_join false [0%nat] [r2 3 0] (scan tbl_s)], [fr 2 [r2 3 0] NoDel (Some [4])].
    split; [cbn [concat]; rewrite app_nil_r; apply Permutation_refl|]. split; [wrote|]. split; [vm_compute; reflexivity|].
    intros P. apply Permutation_length in P. vm_compute in P. discriminate.
  - intros [_ K]. specialize (K 2%nat 4%nat (r2 3 30) (r2 3 0) eq_refl eq_refl ltac:(lia)). discriminate.
Qed.

(* ---- with an index on the key ---- *)
Definition srcb1 : list (list row) := [[r2 2 21; r2 9 90]; [r2 4 44]].
Definition idx1 (f : N) : bool := f =? 3.
Definition joini : list (list jrow) := [full_join true [0%nat] (concat srcb1) (indexed_targets 0 idx1 tbl1 srcb1)].
Example merge_indexed_ex : table_ok tbl1 /\ addressed tbl1 /\ visible upsert (concat srcb1) /\ visible upsert (contents tbl1) /\
  (forall s, In s (concat srcb1) -> nth 0 s None <> None) /\ keys_apart 0 srcb1 /\
  length (indexed_targets 0 idx1 tbl1 srcb1) = 2%nat /\ length (scan tbl1) = 4%nat /\
  Permutation (concat joini) (full_join true (p_on upsert) (concat srcb1) (indexed_targets 0 idx1 tbl1 srcb1)) /\
  option_map contents (merge_table upsert 2 tbl1 joini [fr 4 [r2 2 21; r2 4 44; r2 9 90] NoDel None]) = Some [r2 3 30; r2 5 50; r2 2 21; r2 4 44; r2 9 90].
Proof.
  split; [tok|]. split; [addrd|]. split; [|split].
  1,2: intros r Hr; exists 0%nat; split; [cbn; lia|]; cbn in Hr; repeat destruct Hr as [<-|Hr]; try contradiction; discriminate.
  split; [intros s Hs; cbn in Hs; repeat destruct Hs as [<-|Hs]; try contradiction; discriminate|].
  split.
  { intros i j b b' s s' Hi Hj D Hs Hs'. destruct i as [|[|i]], j as [|[|j]]; cbn in Hi, Hj; try congruence;
      try (rewrite nth_error_nil' in Hi; discriminate); try (rewrite nth_error_nil' in Hj; discriminate);
      injection Hi as <-; injection Hj as <-; cbn in Hs, Hs'; repeat destruct Hs as [<-|Hs]; repeat destruct Hs' as [<-|Hs']; try contradiction; reflexivity. }
  split; [reflexivity|]. split; [reflexivity|]. split; [unfold joini; cbn [concat]; rewrite app_nil_r; apply Permutation_refl|].
  vm_compute. reflexivity.
Qed.

(* the same merge, with and without an index, leaves different tables *)
Definition index_matters (p : params) (key : nat) (srcb : list (list row)) (t : table) : Prop :=
  exists idx bs bs' new new' u u', table_ok t /\ addressed t /\ p_on p = [key] /\ p_source p = Keep /\
    Permutation (concat bs) (full_join false (p_on p) (concat srcb) (scan t)) /\ written (map fst (out_rows p 2 bs)) new /\
    Permutation (concat bs') (full_join true (p_on p) (concat srcb) (indexed_targets key idx t srcb)) /\ written (map fst (out_rows p 2 bs')) new' /\
    merge_table p 2 t bs new = Some u /\ merge_table p 2 t bs' new' = Some u' /\
    Permutation (contents u) (merged p (concat srcb) (contents t)) /\ ~ Permutation (contents u') (merged p (concat srcb) (contents t)).
(* one key in two source batches: the target row is fetched once per batch *)
Theorem index_duplicates_refuted : exists p srcb t, index_matters p 0 srcb t /\
  (forall s, In s (concat srcb) -> nth 0 s None <> None) /\ visible p (concat srcb) /\ visible p (contents t).
Proof.
  exists upsert, [[r2 1 11]; [r2 1 12]], [fr 0 [r2 1 10] NoDel None]. split; [|split; [|split]].
  2: intros s Hs; cbn in Hs; repeat destruct Hs as [<-|Hs]; try contradiction; discriminate.
  2,3: intros r Hr; exists 0%nat; split; [cbn; lia|]; cbn in Hr; repeat destruct Hr as [<-|Hr]; try contradiction; discriminate.
  exists (fun _ => true), [full_join false [0%nat] [r2 1 11; r2 1 12] (scan [fr 0 [r2 1 10] NoDel None])],
    [full_join true [0%nat] [r2 1 11; r2 1 12] (indexed_targets 0 (fun _ => true) [fr 0 [r2 1 10] NoDel None] [[r2 1 11]; [r2 1 12]])].
  exists [fr 1 [r2 1 11; r2 1 12] NoDel None], [fr 1 [r2 1 11; r2 1 11; r2 1 12; r2 1 12] NoDel None].
  eexists. eexists. split; [tok|]. split; [addrd|]. split; [reflexivity|]. split; [reflexivity|].
  split; [cbn [concat]; rewrite app_nil_r; apply Permutation_refl|]. split; [wrote|].
  split; [cbn [concat]; rewrite app_nil_r; apply Permutation_refl|]. split; [wrote|].
  split; [vm_compute; reflexivity|]. split; [vm_compute; reflexivity|]. split; [vm_compute; apply Permutation_refl|].
  intros P. apply Permutation_length in P. vm_compute in P. discriminate.
Qed.
(* null keys match each other only when there is an index: an unrelated row is replaced *)
Theorem index_nulls_refuted : exists p srcb t, index_matters p 1 srcb t /\ visible p (concat srcb) /\ visible p (contents t) /\ length (concat srcb) = 1%nat.
Proof.
  exists (prm [1%nat] UpdateAll true Keep), [[[Some 7%Z; None]]], [fr 0 [r2 1 10] NoDel None; fr 1 [[Some 5%Z; None]] NoDel None]. split; [|split; [|split; [|reflexivity]]].
  2,3: intros r Hr; exists 0%nat; split; [cbn; lia|]; cbn in Hr; repeat destruct Hr as [<-|Hr]; try contradiction; discriminate.
  exists (fun f => f =? 0), [full_join false [1%nat] [[Some 7%Z; None]] (scan [fr 0 [r2 1 10] NoDel None; fr 1 [[Some 5%Z; None]] NoDel None])],
    [full_join true [1%nat] [[Some 7%Z; None]] (indexed_targets 1 (fun f => f =? 0) [fr 0 [r2 1 10] NoDel None; fr 1 [[Some 5%Z; None]] NoDel None] [[[Some 7%Z; None]]])].
  exists [fr 2 [[Some 7%Z; None]] NoDel None], [fr 2 [[Some 7%Z; None]] NoDel None].
  eexists. eexists. split; [tok|]. split; [addrd|]. split; [reflexivity|]. split; [reflexivity|].
  split; [cbn [concat]; rewrite app_nil_r; apply Permutation_refl|]. split; [wrote|].
  split; [cbn [concat]; rewrite app_nil_r; apply Permutation_refl|]. split; [wrote|].
  split; [vm_compute; reflexivity|]. split; [vm_compute; reflexivity|]. split; [vm_compute; apply Permutation_refl|].
  intros P. apply Permutation_length in P. vm_compute in P. discriminate.
Qed.

(* ---- sources with fewer columns ---- *)
Definition joinp : list (list jrow) := [left_join true [0%nat] src1 (scan tbl1)].
Example partial_ex : table_ok tbl1 /\ visible upsert src1 /\ visible upsert (contents tbl1) /\
  (forall r, In r (contents tbl1) -> (length (filter (fun s => same_key (p_on upsert) s r) src1) <= 1)%nat) /\
  Permutation (concat joinp) (left_join (p_insert upsert) (p_on upsert) src1 (scan tbl1)) /\
  map (fun f => new_file f (group (tf_id f) (out_rows upsert 2 joinp)) [map (fun x => (tr_addr x, tr_row x)) (scan_frag f)]) tbl1 =
    [Some [r2 2 21; r2 2 21]; Some [r2 3 29; r2 4 40; r2 5 50]] /\
  new_rows (out_rows upsert 2 joinp) = [r2 9 90].
Proof.
  split; [tok|]. split; [|split].
  1,2: intros r Hr; exists 0%nat; split; [cbn; lia|]; cbn in Hr; repeat destruct Hr as [<-|Hr]; try contradiction; discriminate.
  split; [intros r Hr; cbn in Hr; repeat destruct Hr as [<-|Hr]; try contradiction; vm_compute; lia|].
  split; [unfold joinp; cbn [concat]; rewrite app_nil_r; apply Permutation_refl|]. split; vm_compute; reflexivity.
Qed.

(* Two source rows for one target row, in a fragment of as many rows as updates: the
   values are written in order, over a row that no source row matches. *)
Theorem partial_overwrites_refuted : exists p src t f bs out o r, table_ok t /\ In f t /\ visible p src /\ visible p (contents t) /\
  Permutation (concat bs) (left_join (p_insert p) (p_on p) src (scan t)) /\
  new_file f (group (tf_id f) (out_rows p 2 bs)) [map (fun x => (tr_addr x, tr_row x)) (scan_frag f)] = Some out /\
  nth_error (tf_rows f) o = Some r /\ ~ dv_has (tf_del f) (N.of_nat o) /\ (forall s, In s src -> same_key (p_on p) s r = false) /\
  nth_error out o <> Some r.
Proof.
  exists upsert, [r2 1 11; r2 1 12], [fr 0 [r2 1 10; r2 2 20] NoDel None], (fr 0 [r2 1 10; r2 2 20] NoDel None).
  exists [left_join true [0%nat] [r2 1 11; r2 1 12] (scan [fr 0 [r2 1 10; r2 2 20] NoDel None])], [r2 1 11; r2 1 12], 1%nat, (r2 2 20).
  split; [tok|]. split; [now left|]. split; [|split].
  1,2: intros r Hr; exists 0%nat; split; [cbn; lia|]; cbn in Hr; repeat destruct Hr as [<-|Hr]; try contradiction; discriminate.
  split; [cbn [concat]; rewrite app_nil_r; apply Permutation_refl|]. split; [vm_compute; reflexivity|]. split; [reflexivity|].
  split; [intros []|]. split; [|vm_compute; discriminate].
  intros s Hs. cbn in Hs. repeat destruct Hs as [<-|Hs]; try contradiction; reflexivity.
Qed.
(* Otherwise every later update of the fragment is dropped. *)
Theorem partial_drops_refuted : exists p src t f bs out o r s, table_ok t /\ In f t /\ visible p src /\ visible p (contents t) /\
  Permutation (concat bs) (left_join (p_insert p) (p_on p) src (scan t)) /\
  new_file f (group (tf_id f) (out_rows p 2 bs)) [map (fun x => (tr_addr x, tr_row x)) (scan_frag f)] = Some out /\
  nth_error (tf_rows f) o = Some r /\ filter (fun s => same_key (p_on p) s r) src = [s] /\ wants_update p s r = true /\
  nth_error out o = Some r /\ r <> s.
Proof.
  set (t := [fr 0 [r2 1 10; r2 2 20; r2 3 30; r2 4 40] NoDel None]).
  exists upsert, [r2 1 11; r2 1 12; r2 3 31], t, (fr 0 [r2 1 10; r2 2 20; r2 3 30; r2 4 40] NoDel None).
  exists [left_join true [0%nat] [r2 1 11; r2 1 12; r2 3 31] (scan t)], [r2 1 11; r2 2 20; r2 3 30; r2 4 40], 2%nat, (r2 3 30), (r2 3 31).
  split; [tok|]. split; [now left|]. split; [|split].
  1,2: intros r Hr; exists 0%nat; split; [cbn; lia|]; cbn in Hr; repeat destruct Hr as [<-|Hr]; try contradiction; discriminate.
  split; [cbn [concat]; rewrite app_nil_r; apply Permutation_refl|]. split; [vm_compute; reflexivity|]. split; [reflexivity|].
  split; [reflexivity|]. split; [reflexivity|]. split; [reflexivity|discriminate].
Qed.
