(* C18 continued: which fragments an index expression may be trusted on, said without the
   scanner's own computation of it, and every index trained on its own fragments. *)
From Coq Require Import List Arith NArith ZArith Bool Lia Permutation.
From Verif Require Import Lib AMap RowIdsModel RowIdsSpec SerdeModel TreeMapModel TreeMapProofs MaskProofs SeqSetProofs
  DeletionModel TakeModel ScalarModel ScalarProofs BitmapIndexProofs IndexExprModel IndexExprProofs ScanModel ScanProofs ScanIndexProofs ScanExamples.
Import ListNotations.

(* the columns whose indices a query consults *)
Fixpoint columns (s : sidx) : list N :=
  match s with SNot a => columns a | SAnd a b | SOr a b => columns a ++ columns b | SQuery c _ => [c] end.
(* fragment g is in the bitmap of every index the query consults *)
Definition all_cover (bitmap : N -> list N) (s : sidx) (g : sfrag) : bool :=
  forallb (fun c => existsb (N.eqb (s_id g)) (bitmap c)) (columns s).
(* fragment g is in the bitmap of column c's index *)
Definition one_covers (bitmap : N -> list N) (c : N) (g : sfrag) : bool := existsb (N.eqb (s_id g)) (bitmap c).

Lemma existsb_eqb : forall x l, existsb (N.eqb x) l = memN x l.
Proof. intros x l. apply eq_true_iff_eq. rewrite existsb_exists, memN_In. split; [intros [y [J E]]; apply N.eqb_eq in E; subst; exact J|intros J; exists x; rewrite N.eqb_refl; auto]. Qed.
Lemma covered_all : forall bitmap s g, memN (s_id g) (covered_frags bitmap s) = all_cover bitmap s g.
Proof.
  intros bitmap s g. unfold all_cover. induction s as [a IH|a IHa b IHb|a IHa b IHb|c q]; cbn [columns covered_frags].
  - exact IH.
  - rewrite forallb_app, <- IHa, <- IHb. apply eq_true_iff_eq. rewrite andb_true_iff, !memN_In, s_inter_In. tauto.
  - rewrite forallb_app, <- IHa, <- IHb. apply eq_true_iff_eq. rewrite andb_true_iff, !memN_In, s_inter_In. tauto.
  - cbn [forallb]. rewrite existsb_eqb, andb_true_r. reflexivity.
Qed.
Lemma all_one : forall bitmap s c g, In c (columns s) -> all_cover bitmap s g = true -> one_covers bitmap c g = true.
Proof. intros bitmap s c g J A. unfold all_cover in A. rewrite forallb_forall in A. exact (A c J). Qed.

Theorem covered_scan_spec : forall stable ds requested f search bitmap e,
  sds_ok stable ds -> incl requested ds -> NoDup (map s_id requested) ->
  (forall id r, In (id, r) (live stable requested) -> typed f r /\ nullsafe r e) ->
  (forall s, scalar_query (apply_scalar_indices f e) = Some s ->
     let rel := filter (all_cover bitmap s) requested in
     shape_of s <> None /\ leaves_ok search (live stable rel) s /\ leaves_within stable search s rel /\
     forall g, In g requested -> all_cover bitmap s g = false -> to_expr s <> None /\ forall id r, In (id, r) (frag_live stable g) -> boolsafe r e) ->
  exists out, filtered_scan stable ds requested f search bitmap e = Some out /\
    Permutation out (filter (fun p => passes (snd p) e) (live stable requested)).
Proof.
  intros stable ds requested f search bitmap e O I D TN H. apply filtered_scan_spec; auto. intros s E. specialize (H s E). cbv zeta in *.
  rewrite (filter_ext_in' (fun g => memN (s_id g) (covered_frags bitmap s)) (all_cover bitmap s) requested) by (intros g _; apply covered_all).
  destruct H as [A [B [C U]]]. split; [exact A|]. split; [exact B|]. split; [exact C|]. intros g J X. rewrite covered_all in X. exact (U g J X).
Qed.

Lemma live_mono : forall stable a b, incl a b -> incl (live stable a) (live stable b).
Proof. intros stable a b I [id r] J. apply live_in_ds in J as [g [Jg J]]. apply live_in_ds. exists g. auto. Qed.
Lemma leaves_trained : forall ixs (trained : N -> list (N * row)) sub s,
  (forall c, NoDup (map fst (trained c)) /\ Forall (fun p : N * row => (fst p < two64)%N) (trained c)) ->
  (forall c ix, ixs c = Some ix -> trained_on (trained c) c ix) ->
  (forall c, In c (columns s) -> incl sub (trained c)) -> queries_ok ixs s -> leaves_ok (index_search ixs) sub s.
Proof.
  intros ixs trained sub s D T. induction s as [a IH|a IHa b IHb|a IHa b IHb|c q]; cbn [columns queries_ok leaves_ok]; intros I Q.
  - auto.
  - split; [apply IHa|apply IHb]; try tauto; intros c J; apply I, in_or_app; auto.
  - split; [apply IHa|apply IHb]; try tauto; intros c J; apply I, in_or_app; auto.
  - destruct (D c) as [Dc Lc]. specialize (I c (or_introl eq_refl)). destruct (trained_leaf ixs (trained c) c q Dc Lc (T c) Q) as [t [E [[W P] A]]].
    exists t. split; [exact E|]. split; [exact W|]. split; [exact P|]. intros id r J.
    assert (X : (id < two64)%N) by (rewrite Forall_forall in Lc; exact (Lc _ (I _ J))). rewrite (A id X). split.
    + intros [r' [J' S]]. assert (r' = r); [|subst; exact S]. apply (find_live _ id r' Dc) in J'. pose proof (find_live _ id r Dc (I _ J)) as F1. congruence.
    + intros S. exists r. auto.
Qed.
Lemma leaves_in_trained : forall ixs (trained : N -> list (N * row)) (P : N -> Prop) s,
  (forall c, NoDup (map fst (trained c)) /\ Forall (fun p : N * row => (fst p < two64)%N) (trained c)) ->
  (forall c ix, ixs c = Some ix -> trained_on (trained c) c ix) -> queries_ok ixs s ->
  (forall c id r, In c (columns s) -> In (id, r) (trained c) -> P id) -> leaves_in (index_search ixs) P s.
Proof.
  intros ixs trained P s D T. induction s as [a IH|a IHa b IHb|a IHa b IHb|c q]; cbn [columns queries_ok leaves_in]; intros Q H.
  - auto.
  - split; [apply IHa|apply IHb]; try tauto; intros c id r J; apply (H c id r), in_or_app; auto.
  - split; [apply IHa|apply IHb]; try tauto; intros c id r J; apply (H c id r), in_or_app; auto.
  - destruct (D c) as [Dc Lc]. intros t E x X C. destruct (trained_leaf ixs (trained c) c q Dc Lc (T c) Q) as [t' [E' [_ A]]]. rewrite E in E'. injection E' as <-.
    apply (A x X) in C as [r [J _]]. exact (H c x r (or_introl eq_refl) J).
Qed.

(* each index was trained on rows of its own, which include the live rows of the requested
   fragments in its own bitmap; indices may cover different fragments *)
Theorem own_bitmaps_scan : forall stable ds requested trained f ixs bitmap e,
  sds_ok stable ds -> incl requested ds -> NoDup (map s_id requested) ->
  (forall id r, In (id, r) (live stable requested) -> typed f r /\ nullsafe r e) ->
  (forall c, NoDup (map fst (trained c)) /\ Forall (fun p : N * row => (fst p < two64)%N) (trained c)) ->
  (forall c ix, ixs c = Some ix -> trained_on (trained c) c ix) ->
  (forall c ix, ixs c = Some ix -> incl (live stable (filter (one_covers bitmap c) requested)) (trained c)) ->
  (forall s, scalar_query (apply_scalar_indices f e) = Some s ->
     let rel := filter (all_cover bitmap s) requested in
     shape_of s <> None /\ queries_ok ixs s /\
     (if stable
      then shape_of s = Some ShB -> (forall g, In g rel -> fr_dv (s_frag g) = None) ->
           forall c id r, In c (columns s) -> In (id, r) (trained c) -> In id (flat_map (frag_ids true) rel)
      else forall c id r, In c (columns s) -> In (id, r) (trained c) -> In (fragment_id id) (map s_id rel) -> In id (flat_map (frag_ids false) rel)) /\
     forall g, In g requested -> all_cover bitmap s g = false -> to_expr s <> None /\ forall id r, In (id, r) (frag_live stable g) -> boolsafe r e) ->
  exists out, filtered_scan stable ds requested f (index_search ixs) bitmap e = Some out /\
    Permutation out (filter (fun p => passes (snd p) e) (live stable requested)).
Proof.
  intros stable ds requested trained f ixs bitmap e O I D TN DT T IN H. apply covered_scan_spec; auto. intros s E. specialize (H s E). cbv zeta in *.
  destruct H as [SH [Q [WI UN]]]. split; [exact SH|].
  assert (HAS : forall c, In c (columns s) -> exists ix, ixs c = Some ix).
  { clear -Q. induction s as [a IH|a IHa b IHb|a IHa b IHb|c q]; cbn [columns queries_ok] in *; intros c0 J.
    - auto.
    - apply in_app_iff in J. destruct Q, J; auto.
    - apply in_app_iff in J. destruct Q, J; auto.
    - destruct J as [<-|[]]. unfold aquery_ok in Q. destruct (ixs c) as [ix|]; [eauto|destruct q; contradiction]. }
  split; [|split; [|exact UN]].
  - apply leaves_trained with (trained := trained); auto. intros c J. destruct (HAS c J) as [ix X]. eapply incl_tran; [|exact (IN c ix X)]. apply live_mono.
    intros g G. apply filter_In in G as [G C]. apply filter_In. split; [exact G|]. eapply all_one; eauto.
  - unfold leaves_within. destruct stable.
    + intros SB ND. eapply leaves_in_trained; eauto.
    + eapply leaves_in_trained; eauto.
Qed.

(* fragment 0 is in the bitmap of x only, fragment 1 in both, fragment 2 in that of y only;
   the filter x > 1 AND y < 5 *)
Example own_bitmaps_instance :
  let r0 x y := {| r_col := fun c => if (c =? 0)%N then Some x else if (c =? 1)%N then Some y else None; r_list := fun _ => None; r_other := fun _ => int 0 |} in
  let f0 := fr 0 [r0 1 1; r0 5 2; r0 7 9]%Z None [] in
  let f1 := fr 1 [r0 8 1; r0 7 9; r0 2 3]%Z (Some (DBitmap [0]%N)) [] in
  let f2 := fr 2 [r0 0 0; r0 4 4]%Z None [] in
  let ds := [f0; f1; f2] in
  let info c := if (c <? 2)%N then Some {| ix_parser := PSargable; ix_bool := false; ix_fits := fun _ => true; ix_fits_list := fun _ => true |} else None in
  let trained c := if (c =? 0)%N then live false [f0; f1] else if (c =? 1)%N then live false [f1; f2] else [] in
  let ixs c := if (c <? 2)%N then Some (IxBitmap (map (fun p => (r_col (snd p) c, fst p)) (trained c))) else None in
  let bitmap c := if (c =? 0)%N then [0; 1]%N else [1; 2]%N in
  let e := EAnd (cmp 0 OGt 1) (cmp 1 OLt 5) in
  omap (map fst) (filtered_scan false ds ds info (index_search ixs) bitmap e) = Some [4294967298; 1; 8589934593]%N /\
  exists out, filtered_scan false ds ds info (index_search ixs) bitmap e = Some out /\ Permutation out (filter (fun p => passes (snd p) e) (live false ds)).
Proof.
  intros r0 f0 f1 f2 ds info trained ixs bitmap e. split; [vm_compute; reflexivity|]. apply own_bitmaps_scan with (trained := trained).
  - apply addr_table; [|nodupN]. intros f [<-|[<-|[<-|[]]]]; (split; [vm_compute; reflexivity|]; split; [vm_compute; congruence|repeat constructor]).
  - apply incl_refl.
  - nodupN.
  - intros id r J. vm_compute in J. repeat (destruct J as [J|J]; [injection J as <- <-; split; [intros c i E B; unfold info in E; destruct (c <? 2)%N; [injection E as <-|]; discriminate|cbn; intuition discriminate]|]). destruct J.
  - intros c. unfold trained. destruct (c =? 0)%N; [|destruct (c =? 1)%N]; (split; [vm_compute; nodupN|repeat constructor]).
  - intros c ix E. unfold ixs in E. destruct (c <? 2)%N eqn:X; [|discriminate]. injection E as <-. cbn [trained_on]. apply Permutation_refl.
  - intros c ix E. unfold ixs in E. destruct (c <? 2)%N eqn:X; [|discriminate]. apply N.ltb_lt in X. clear E. assert (Y : c = 0%N \/ c = 1%N) by lia. destruct Y as [-> | ->]; intros x J; vm_compute in J; vm_compute; tauto.
  - intros s E. cbv zeta. vm_compute in E. injection E as <-. split; [discriminate|]. split; [cbn; intuition discriminate|]. split.
    + intros c id r C J F. cbn [columns app] in C. destruct C as [<-|[<-|[]]]; vm_compute in J; repeat (destruct J as [J|J]; [injection J as <- <-; vm_compute in F |- *; intuition discriminate|]); destruct J.
    + intros g J C. split; [discriminate|]. intros id r _. cbn. tauto.
Qed.
