(* C18, C72, C73: what goes wrong outside the side conditions, and instances. *)
From Coq Require Import List Arith NArith ZArith Bool Lia Permutation.
From Verif Require Import Lib AMap RowIdsModel RowIdsSpec SerdeModel TreeMapModel TreeMapProofs MaskProofs SeqSetProofs
  DeletionModel TakeModel ScalarModel ScalarProofs BitmapIndexProofs IndexExprModel IndexExprProofs ScanModel ScanProofs ScanIndexProofs.
Import ListNotations.

(* a table, a scan of some of its fragments, and exact indices on the rows [trained] *)
Definition table_ok (stable : bool) (ds requested : list sfrag) (trained : list (N * row)) (f : info) (ixs : N -> option cindex) : Prop :=
  sds_ok stable ds /\ incl requested ds /\ NoDup (map s_id requested) /\ (forall id r, In (id, r) (live stable ds) -> typed f r) /\
  NoDup (map fst trained) /\ Forall (fun p : N * row => (fst p < two64)%N) trained /\ (forall c ix, ixs c = Some ix -> trained_on trained c ix).
(* the indexed scan returns the rows that a plain scan with the filter returns *)
Definition scan_exact (stable : bool) (ds requested : list sfrag) (f : info) (ixs : N -> option cindex) (bitmap : N -> list N) (e : expr) : Prop :=
  exists out, filtered_scan stable ds requested f (index_search ixs) bitmap e = Some out /\
    Permutation out (filter (fun p => passes (snd p) e) (live stable requested)).
Lemma exact_ids : forall stable ds requested f ixs bitmap e l l', scan_exact stable ds requested f ixs bitmap e ->
  omap (map fst) (filtered_scan stable ds requested f (index_search ixs) bitmap e) = l ->
  map fst (filter (fun p => passes (snd p) e) (live stable requested)) = l' -> exists k, l = Some k /\ Permutation k l'.
Proof. intros stable ds requested f ixs bitmap e l l' [out [E P]] <- <-. rewrite E. exists (map fst out). split; [reflexivity|]. apply Permutation_map. exact P. Qed.

(* two integer columns, 0 and 1, and a boolean column 2, with bitmap indices *)
Definition mk (x y b : value) : row := {| r_col := fun c => if (c =? 0)%N then x else if (c =? 1)%N then y else if (c =? 2)%N then b else None; r_list := fun _ => None; r_other := fun _ => None |}.
Definition fr (k : N) (rows : list row) (d : option dv) (q : rowseq) : sfrag := {| s_frag := {| fr_id := k; fr_rows := rows; fr_dv := d |}; s_seq := q |}.
Definition ex_info : info := fun c => if (c <? 3)%N then Some {| ix_parser := PSargable; ix_bool := (c =? 2)%N; ix_fits := fun _ => true; ix_fits_list := fun _ => true |} else None.
Definition ex_ixs (trained : list (N * row)) : N -> option cindex := fun c => if (c <? 3)%N then Some (IxBitmap (map (fun p => (r_col (snd p) c, fst p)) trained)) else None.
Definition int (z : Z) : value := Some z.
Definition cmp (c : N) (o : cmp_op) (z : Z) : expr := ECmp o (ECol c) (ELit (Some z)).

Lemma ex_trained : forall trained c ix, ex_ixs trained c = Some ix -> trained_on trained c ix.
Proof. intros trained c ix E. unfold ex_ixs in E. destruct (c <? 3)%N; [|discriminate]. injection E as <-. cbn. apply Permutation_refl. Qed.
Lemma mk_typed : forall x y b, b = None \/ b = Some 0%Z \/ b = Some 1%Z -> typed ex_info (mk x y b).
Proof.
  intros x y b H c i E B. unfold ex_info in E. destruct (c <? 3)%N; [|discriminate]. injection E as <-. cbn in B. apply N.eqb_eq in B. subst c. exact H.
Qed.
Ltac nodupN := repeat (apply NoDup_cons; [cbn; intuition discriminate|]); apply NoDup_nil.
Ltac fragok := repeat match goal with |- _ /\ _ => split | |- Forall _ _ => constructor | |- _ -> _ => intros ? end; try (vm_compute; reflexivity); try discriminate; try (vm_compute; congruence).
Lemma addr_table : forall ds, (forall f, In f ds -> (s_id f < two32)%N /\ (N.of_nat (s_phys f) <= two32)%N /\ Forall (fun k => (k < N.of_nat (s_phys f))%N) (deleted f)) ->
  NoDup (map s_id ds) -> sds_ok false ds.
Proof.
  intros ds H D. split; [|split; [exact D|discriminate]]. apply Forall_forall. intros f J. destruct (H f J) as [A [B C]]. split; [exact A|]. split; [exact B|]. split; [exact C|discriminate].
Qed.
(* one fragment without deletions, indices on all its rows *)
Lemma one_frag : forall rows, (forall r, In r rows -> typed ex_info r) -> (N.of_nat (length rows) < two32)%N ->
  let ds := [fr 0 rows None []] in table_ok false ds ds (live false ds) ex_info (ex_ixs (live false ds)).
Proof.
  intros rows T L ds. assert (O : sds_ok false ds).
  { apply addr_table; [|repeat constructor; cbn; tauto]. intros f [<-|[]]. split; [vm_compute; reflexivity|]. split; [unfold s_phys; cbn; lia|constructor]. }
  split; [exact O|]. split; [apply incl_refl|]. split; [repeat constructor; cbn; tauto|]. split; [|split; [apply live_fst_nodup; exact O|split; [|apply ex_trained]]].
  - intros id r J. apply live_in_ds in J as [f [Jf J]]. destruct O as [F _]. rewrite Forall_forall in F. apply live_In in J as [k [[_ J] _]]; [|auto]. destruct Jf as [<-|[]]. apply nth_error_In in J. apply T. exact J.
  - apply Forall_forall. intros [id r] J. apply live_in_ds in J as [f [Jf J]]. destruct O as [F _]. rewrite Forall_forall in F. cbn [fst]. eapply ids_lt; [apply F; exact Jf|]. eapply frag_live_id; [apply F; exact Jf|exact J].
Qed.
Ltac rows_typed := let r := fresh in let H := fresh in intros r H; repeat (destruct H as [<-|H]; [apply mk_typed; auto|]); destruct H.
Ltac refute n := let H := fresh in intros H; eapply exact_ids in H; [|vm_compute; reflexivity|vm_compute; reflexivity];
  let k := fresh in let P := fresh in destruct H as [k [H P]]; try discriminate H; try (injection H as <-; apply Permutation_length in P; discriminate P);
  injection H as <-; apply (Permutation_in n) in P.

(* C17 shows up: x != 5 OR y = 3 loses the rows with x = 5 and y = 3 *)
Theorem or_of_negation_refuted : exists ds trained f ixs bitmap e, table_ok false ds ds trained f ixs /\
  (forall id r, In (id, r) (live false ds) -> nullsafe r e) /\ incl (live false ds) trained /\ (forall c g, In g ds -> In (s_id g) (bitmap c)) /\ ~ scan_exact false ds ds f ixs bitmap e.
Proof.
  set (rows := [mk (int 5) (int 3) None; mk (int 1) (int 0) None; mk (int 5) (int 0) None]).
  exists [fr 0 rows None []], (live false [fr 0 rows None []]), ex_info, (ex_ixs (live false [fr 0 rows None []])), (fun _ => [0%N]), (EOr (cmp 0 ONe 5) (cmp 1 OEq 3)).
  split; [apply one_frag; [rows_typed|vm_compute; reflexivity]|]. split; [|split; [apply incl_refl|split]].
  - intros id r J. vm_compute in J. repeat (destruct J as [J|J]; [injection J as <- <-; cbn; intuition discriminate|]). destruct J.
  - intros c g [<-|[]]. left. reflexivity.
  - refute 0%N.
Qed.
(* NOT (x = 1 AND y != 2) loses the rows with x <> 1 and y <> 2 *)
Theorem not_of_mixed_refuted : exists ds trained f ixs bitmap e, table_ok false ds ds trained f ixs /\
  (forall id r, In (id, r) (live false ds) -> nullsafe r e) /\ incl (live false ds) trained /\ (forall c g, In g ds -> In (s_id g) (bitmap c)) /\ ~ scan_exact false ds ds f ixs bitmap e.
Proof.
  set (rows := [mk (int 0) (int 0) None; mk (int 1) (int 2) None; mk (int 1) (int 0) None]).
  exists [fr 0 rows None []], (live false [fr 0 rows None []]), ex_info, (ex_ixs (live false [fr 0 rows None []])), (fun _ => [0%N]), (ENot (EAnd (cmp 0 OEq 1) (cmp 1 ONe 2))).
  split; [apply one_frag; [rows_typed|vm_compute; reflexivity]|]. split; [|split; [apply incl_refl|split]].
  - intros id r J. vm_compute in J. repeat (destruct J as [J|J]; [injection J as <- <-; cbn; intuition discriminate|]). destruct J.
  - intros c g [<-|[]]. left. reflexivity.
  - refute 0%N.
Qed.
(* x != 5 returns the rows where x is null *)
Theorem not_equal_null_refuted : exists ds trained f ixs bitmap e s, table_ok false ds ds trained f ixs /\ incl (live false ds) trained /\ (forall c g, In g ds -> In (s_id g) (bitmap c)) /\
  scalar_query (apply_scalar_indices f e) = Some s /\ shape_of s <> None /\ ~ scan_exact false ds ds f ixs bitmap e.
Proof.
  set (rows := [mk None (int 3) None; mk (int 1) (int 0) None]).
  exists [fr 0 rows None []], (live false [fr 0 rows None []]), ex_info, (ex_ixs (live false [fr 0 rows None []])), (fun _ => [0%N]), (cmp 0 ONe 5). eexists.
  split; [apply one_frag; [rows_typed|vm_compute; reflexivity]|]. split; [apply incl_refl|]. split; [intros c g [<-|[]]; left; reflexivity|]. split; [reflexivity|]. split; [discriminate|]. refute 0%N.
Qed.
(* x = NULL returns the rows where x is null *)
Theorem equal_null_refuted : exists ds trained f ixs bitmap e s, table_ok false ds ds trained f ixs /\ incl (live false ds) trained /\ (forall c g, In g ds -> In (s_id g) (bitmap c)) /\
  scalar_query (apply_scalar_indices f e) = Some s /\ shape_of s <> None /\ ~ scan_exact false ds ds f ixs bitmap e.
Proof.
  set (rows := [mk None (int 3) None; mk (int 1) (int 0) None]).
  exists [fr 0 rows None []], (live false [fr 0 rows None []]), ex_info, (ex_ixs (live false [fr 0 rows None []])), (fun _ => [0%N]), (ECmp OEq (ECol 0) (ELit None)). eexists.
  split; [apply one_frag; [rows_typed|vm_compute; reflexivity]|]. split; [apply incl_refl|]. split; [intros c g [<-|[]]; left; reflexivity|]. split; [reflexivity|]. split; [discriminate|]. refute 0%N.
Qed.
(* x NOT IN (1, NULL) is never true, but the index path returns rows *)
Theorem not_in_null_refuted : exists ds trained f ixs bitmap e s, table_ok false ds ds trained f ixs /\ incl (live false ds) trained /\ (forall c g, In g ds -> In (s_id g) (bitmap c)) /\
  scalar_query (apply_scalar_indices f e) = Some s /\ shape_of s <> None /\ (forall id r, In (id, r) (live false ds) -> r_col r 0 <> None) /\ ~ scan_exact false ds ds f ixs bitmap e.
Proof.
  set (rows := [mk (int 1) (int 3) None; mk (int 2) (int 0) None]).
  exists [fr 0 rows None []], (live false [fr 0 rows None []]), ex_info, (ex_ixs (live false [fr 0 rows None []])), (fun _ => [0%N]), (EIn true (ECol 0) [ALit (int 1); ALit None]). eexists.
  split; [apply one_frag; [rows_typed|vm_compute; reflexivity]|]. split; [apply incl_refl|]. split; [intros c g [<-|[]]; left; reflexivity|]. split; [reflexivity|]. split; [discriminate|]. split; [|refute 0%N].
  intros id r J. vm_compute in J. repeat (destruct J as [J|J]; [injection J as <- <-; cbn; discriminate|]). destruct J.
Qed.
(* NOT (b IS TRUE): the row with a null is returned from a fragment that the index
   covers and dropped from one that it does not cover *)
Theorem is_true_uncovered_refuted : exists ds trained f ixs bitmap e, table_ok false ds ds trained f ixs /\
  (forall id r, In (id, r) (live false ds) -> nullsafe r e) /\
  (exists s, scalar_query (apply_scalar_indices f e) = Some s /\ shape_of s <> None /\ to_expr s <> None) /\
  map fst (filter (fun p => passes (snd p) e) (live false ds)) = [0; 4294967296]%N /\
  omap (map fst) (filtered_scan false ds ds f (index_search ixs) bitmap e) = Some [0]%N.
Proof.
  set (rows := [mk (int 1) (int 3) None]). set (ds := [fr 0 rows None []; fr 1 rows None []]). set (tr := live false [fr 0 rows None []]).
  exists ds, tr, ex_info, (ex_ixs tr), (fun _ => [0%N]), (ENot (EIsTrue (ECol 2))).
  split; [|split; [|split; [|split; vm_compute; reflexivity]]].
  - assert (O : sds_ok false ds).
    { apply addr_table; [|nodupN]. intros f [<-|[<-|[]]]; (split; [vm_compute; reflexivity|]; split; [vm_compute; congruence|constructor]). }
    split; [exact O|]. split; [apply incl_refl|]. split; [nodupN|]. split; [|split; [nodupN|split; [repeat constructor|apply ex_trained]]].
    intros id r J. vm_compute in J. repeat (destruct J as [J|J]; [injection J as <- <-; apply (mk_typed (int 1) (int 3) None); auto|]). destruct J.
  - intros id r J. vm_compute in J. repeat (destruct J as [J|J]; [injection J as <- <-; cbn; intuition discriminate|]). destruct J.
  - eexists. split; [reflexivity|]. split; discriminate.
Qed.

(* ---- stable row ids ---- *)
Lemma range_set_ok : forall a b, (a <= b)%N -> (0 < b)%N -> (b <= u32_max * two32)%N -> set_ok [Range a b].
Proof.
  intros a b H H0 H1. split; [|split].
  - constructor; [|constructor]. cbn [seg_wf]. unfold u32_max, two32, two64 in *. lia.
  - constructor; [|constructor]. split; assumption.
  - intros q1 s q2 x E K J. destruct q1 as [|y q1]; [destruct J|]. destruct q1; discriminate.
Qed.
Lemma nodel_frag_ok : forall k rows a b, (k < two32)%N -> (a < b)%N -> (b <= u32_max * two32)%N -> N.of_nat (length rows) = (b - a)%N -> (b - a <= two32)%N ->
  sfrag_ok true (fr k rows None [Range a b]).
Proof.
  intros k rows a b K H B L M. assert (S : set_ok [Range a b]) by (apply range_set_ok; lia).
  split; [exact K|]. split; [unfold s_phys; cbn; lia|]. split; [constructor|]. intros _. split; [exact S|]. split; [|split; [exact Logic.I|]].
  - cbn. rewrite app_nil_r. unfold range_list. rewrite nrange_length. unfold s_phys. cbn. lia.
  - intros q E. injection E as <-. split; [exact (proj1 (proj2 S))|exact (proj2 (proj2 S))].
Qed.
(* C73: x != 5 over the first of two fragments: the index knows two rows with x = 5 in
   the other fragment, the block list is longer than the fragment and the capacity
   computation underflows *)
Theorem block_list_capacity_refuted : exists ds requested trained f ixs bitmap e, table_ok true ds requested trained f ixs /\
  (forall id r, In (id, r) (live true ds) -> nullsafe r e) /\ incl (live true ds) trained /\ (forall c g, In g ds -> In (s_id g) (bitmap c)) /\
  (exists s, scalar_query (apply_scalar_indices f e) = Some s /\ shape_of s <> None) /\
  filtered_scan true ds requested f (index_search ixs) bitmap e = None /\
  map fst (filter (fun p => passes (snd p) e) (live true requested)) = [0]%N.
Proof.
  set (f0 := fr 0 [mk (int 1) (int 3) None] None [Range 0 1]). set (f1 := fr 1 [mk (int 5) (int 3) None; mk (int 5) (int 3) None] None [Range 1 3]).
  set (ds := [f0; f1]). set (tr := live true ds).
  exists ds, [f0], tr, ex_info, (ex_ixs tr), (fun _ => [0; 1]%N), (cmp 0 ONe 5).
  assert (O : sds_ok true ds).
  { split; [|split; [nodupN|intros _; vm_compute; nodupN]]. constructor; [|constructor; [|constructor]]; apply nodel_frag_ok; try (vm_compute; reflexivity); vm_compute; congruence. }
  split; [|split; [|split; [apply incl_refl|split; [|split; [|split; vm_compute; reflexivity]]]]].
  - split; [exact O|]. split; [intros g [<-|[]]; left; reflexivity|]. split; [nodupN|]. split; [|split; [unfold tr; apply live_fst_nodup; exact O|split; [apply Forall_forall; intros p J; vm_compute in J; repeat (destruct J as [J|J]; [subst p; vm_compute; reflexivity|]); destruct J|apply ex_trained]]].
    intros id r J. vm_compute in J. repeat (destruct J as [J|J]; [injection J as <- <-; apply mk_typed; auto|]). destruct J.
  - intros id r J. vm_compute in J. repeat (destruct J as [J|J]; [injection J as <- <-; cbn; intuition discriminate|]). destruct J.
  - intros c g [<-|[<-|[]]]; cbn; auto.
  - eexists. split; [reflexivity|discriminate].
Qed.

(* C72: a deletion set in hash order (here positions 2, 0) masks the wrong rows *)
Theorem unsorted_deletions_refuted : exists ds p id, 
  (forall f, In f ds -> set_ok (s_seq f) /\ length (seq_iter (s_seq f)) = s_phys f /\ NoDup (deleted f) /\ Forall (fun k => (k < N.of_nat (s_phys f))%N) (deleted f)) /\
  NoDup (flat_map (frag_ids true) ds) /\ create_deletion_mask true ds [0%N] = Some (Some p) /\ selected p id = true /\ ~ (exists r, In (id, r) (live true ds)).
Proof.
  set (r := mk (int 1) (int 1) None). set (ds := [fr 0 [r; r; r; r] (Some (DSet [2; 0]%N)) [Range 10 14]]).
  exists ds. destruct (create_deletion_mask true ds [0%N]) as [[p|]|] eqn:E; [|vm_compute in E; discriminate|vm_compute in E; discriminate].
  exists p, 10%N. split; [|split; [vm_compute; nodupN|split; [reflexivity|split]]].
  - intros f [<-|[]]. split; [apply range_set_ok; vm_compute; congruence|]. split; [reflexivity|]. split; [cbn; nodupN|]. repeat constructor.
  - vm_compute in E. injection E as <-. vm_compute. reflexivity.
  - intros [x J]. vm_compute in J. repeat (destruct J as [J|J]; [discriminate|]). destruct J.
Qed.
(* C72: an index without a fragment bitmap: the last fragment is left out of the mask *)
Theorem unknown_bitmap_refuted : exists ds max frags pm id,
  sds_ok false ds /\ (forall f, In f ds -> (s_id f <= max)%N) /\ frags = prefilter_fragments max [None] /\
  create_deletion_mask false ds frags = Some pm /\ (match pm with Some p => selected p id | None => true end) = true /\
  (exists f k r, In f ds /\ row_at false f k id r /\ In (N.of_nat k) (deleted f)).
Proof.
  set (r := mk (int 1) (int 1) None). set (f1 := fr 1 [r; r] (Some (DBitmap [1]%N)) []). set (ds := [fr 0 [r] None []; f1]).
  exists ds, 1%N, (prefilter_fragments 1 [None]). eexists. exists 4294967297%N. split; [|split; [|split; [reflexivity|split; [vm_compute; reflexivity|split; [reflexivity|]]]]].
  - apply addr_table; [|nodupN]. intros f [<-|[<-|[]]]; (split; [vm_compute; reflexivity|]; split; [vm_compute; congruence|repeat constructor]).
  - intros f [<-|[<-|[]]]; vm_compute; congruence.
  - exists f1, 1, r. split; [right; left; reflexivity|]. split; [split; vm_compute; reflexivity|left; reflexivity].
Qed.
(* with the bitmaps known, every fragment of some bitmap is considered *)
Theorem known_bitmaps : forall max bitmaps k, ~ In None bitmaps -> (In k (prefilter_fragments max bitmaps) <-> exists b, In (Some b) bitmaps /\ In k b).
Proof.
  intros max bitmaps k H. unfold prefilter_fragments.
  assert (E : existsb (fun b : option (list N) => match b with None => true | _ => false end) bitmaps = false).
  { destruct (existsb _ bitmaps) eqn:E; [|reflexivity]. apply existsb_exists in E as [[b|] [J X]]; [discriminate|contradiction]. }
  rewrite E. clear E. assert (G : forall acc, In k (fold_left (fun acc b => match b with Some s => s_union acc s | None => acc end) bitmaps acc) <-> In k acc \/ exists b, In (Some b) bitmaps /\ In k b).
  { induction bitmaps as [|o bs IH]; intros acc; cbn [fold_left]; [split; [auto|intros [A|[b [[] _]]]; exact A]|].
    destruct o as [s|]; [|exfalso; apply H; left; reflexivity]. rewrite IH by (intros J; apply H; right; exact J). rewrite s_union_In. split.
    - intros [[A|A]|[b [A B]]]; [auto|right; exists s; split; [left; reflexivity|exact A]|right; exists b; split; [right; exact A|exact B]].
    - intros [A|[b [[A|A] B]]]; [auto|injection A as ->; auto|right; exists b; auto]. }
  rewrite G. split; [intros [[]|A]; exact A|auto].
Qed.
(* with an unknown bitmap, the fragments below the highest id are considered *)
Theorem unknown_bitmap_partial : forall max bitmaps k, In None bitmaps -> (In k (prefilter_fragments max bitmaps) <-> (k < max)%N).
Proof.
  intros max bitmaps k H. unfold prefilter_fragments.
  assert (E : existsb (fun b : option (list N) => match b with None => true | _ => false end) bitmaps = true) by (apply existsb_exists; exists None; auto).
  rewrite E, nrange_In. lia.
Qed.

(* ---- instances ---- *)
(* two fragments, a deletion in each, the second not covered by the index of x; the
   filter x > 1 AND x != 7 AND (opaque) *)
Example scan_instance :
  let r0 x o := {| r_col := fun c => if (c =? 0)%N then Some x else None; r_list := fun _ => None; r_other := fun _ => o |} in
  let f0 := fr 0 [r0 1 (int 1); r0 5 (int 1); r0 7 (int 1); r0 9 (int 0)]%Z (Some (DSet [1]%N)) [] in
  let f1 := fr 1 [r0 8 (int 1); r0 7 (int 1); r0 2 (int 1)]%Z (Some (DBitmap [0]%N)) [] in
  let ds := [f0; f1] in
  let info c := if (c =? 0)%N then Some {| ix_parser := PSargable; ix_bool := false; ix_fits := fun _ => true; ix_fits_list := fun _ => true |} else None in
  let tr := [(0, r0 1 (int 1)); (1, r0 5 (int 1)); (2, r0 7 (int 1)); (3, r0 9 (int 0))]%Z in
  let tr := map (fun p => (Z.to_N (fst p), snd p)) tr in
  let ixs c := if (c =? 0)%N then Some (IxBitmap (map (fun p => (r_col (snd p) c, fst p)) tr)) else None in
  let e := EAnd (EAnd (cmp 0 OGt 1) (cmp 0 ONe 7)) (EOpaque 0) in
  omap (map fst) (filtered_scan false ds ds info (index_search ixs) (fun _ => [0%N]) e) = Some [4294967298]%N /\
  exists out, filtered_scan false ds ds info (index_search ixs) (fun _ => [0%N]) e = Some out /\ Permutation out (filter (fun p => passes (snd p) e) (live false ds)).
Proof.
  intros r0 f0 f1 ds info tr1 tr ixs e. split; [vm_compute; reflexivity|]. apply trained_scan_spec with (trained := tr).
  - apply addr_table; [|nodupN]. intros f [<-|[<-|[]]]; (split; [vm_compute; reflexivity|]; split; [vm_compute; congruence|repeat constructor]).
  - apply incl_refl.
  - nodupN.
  - intros id r J. vm_compute in J. repeat (destruct J as [J|J]; [injection J as <- <-; split; [intros c i E B; unfold info in E; destruct (c =? 0)%N; [injection E as <-|]; discriminate|cbn; intuition discriminate]|]). destruct J.
  - nodupN.
  - repeat constructor.
  - intros c ix E. unfold ixs in E. destruct (c =? 0)%N eqn:X; [|discriminate]. injection E as <-. cbn [trained_on]. apply Permutation_refl.
  - intros s E. cbv zeta. vm_compute in E. injection E as <-. split; [discriminate|]. split; [cbn; intuition discriminate|]. split; [|split].
    + intros x J. vm_compute in J. vm_compute. tauto.
    + intros id r J F. vm_compute in J. repeat (destruct J as [J|J]; [injection J as <- <-; vm_compute; tauto|]). destruct J.
    + intros g J C. split; [discriminate|]. intros id r _. cbn. tauto.
Qed.
Example mask_instance : 
  let r := mk (int 1) (int 1) None in
  let ds := [fr 0 [r; r; r] (Some (DSet [2; 0]%N)) []; fr 2 [r] None []] in
  sds_ok false ds /\ create_deletion_mask false ds [0; 1; 2]%N = Some (Some (from_block [(0%N, Partial [0; 2]%N); (1%N, Full)])).
Proof.
  intros r ds. split; [|vm_compute; reflexivity]. apply addr_table; [|nodupN]. intros f [<-|[<-|[]]]; (split; [vm_compute; reflexivity|]; split; [vm_compute; congruence|repeat constructor]).
Qed.
Example row_ids_instance :
  let r := mk (int 1) (int 1) None in
  let frags := [fr 0 [r; r; r] None [Range 10 13]; fr 2 [r; r] None [Range 3 5]] in
  let m := {| allow := Some [(0%N, Partial [3; 11; 50]%N)]; block := Some [(0%N, Partial [11]%N)] |} in
  sds_ok true frags /\ mask_good m /\ ids_within true m frags /\ row_ids_for_mask true m frags = Some [3]%N /\
  row_ids_for_mask true (from_block [(0%N, Partial [11]%N)]) frags = Some [10; 12; 3; 4]%N /\
  row_ids_for_mask false (from_block [(0%N, Partial [1; 2]%N)]) frags = Some [0; 8589934592; 8589934593]%N.
Proof.
  intros r frags m. split; [|split; [|split; [intros E; discriminate|split; [|split]; vm_compute; reflexivity]]].
  - split; [|split; [nodupN|intros _; vm_compute; nodupN]]. constructor; [|constructor; [|constructor]]; apply nodel_frag_ok; try (vm_compute; reflexivity); vm_compute; congruence.
  - split; (split; [split; [repeat constructor; cbn; intuition lia|]|]); try (repeat constructor; cbn; try (vm_compute; reflexivity); intuition (subst; vm_compute; reflexivity)); intros f E; cbn in E; destruct (0 =? f)%N; destruct (f =? 0)%N; discriminate.
Qed.
