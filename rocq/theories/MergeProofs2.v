(* MERGE INSERT: the paths with and without an index; sources with fewer columns. *)
From Coq Require Import List Arith NArith ZArith Bool Lia Permutation.
From Coq Require Import ZifyBool ZifyN ZifyNat.
From Verif Require Import Lib AMap SerdeModel DeletionModel DeletionSpec DeletionProofs UpdaterProofs MergeModel MergeSpec MergeProofs.
Import ListNotations.
Local Open Scope N_scope.
Local Opaque two32.

(* the path without an index: all surviving rows are joined *)
Theorem merge_exact : forall p w src t ts bs new, table_ok t -> addressed t ->
  visible p src -> visible p (contents t) ->
  Permutation ts (scan t) ->
  Permutation (concat bs) (full_join false (p_on p) src ts) ->
  written (map fst (out_rows p w bs)) new ->
  exists t', merge_table p w t bs new = Some t' /\
    Permutation (contents t') (merged p src (contents t)) /\
    out_stats p w bs = {| st_inserted := spec_inserted p src (contents t); st_updated := spec_updated p src (contents t);
                          st_deleted := spec_deleted p src (contents t) |}.
Proof.
  intros p w src t ts bs new T A Vs Vt Pt P W.
  apply (merge_general false (fun _ => true) p w src t ts bs new); auto.
  - intros r Hr. apply Vt. unfold contents. eapply Permutation_in; [apply Permutation_map; exact Pt|exact Hr].
  - rewrite filter_all_true by auto. exact Pt.
  - discriminate.
Qed.

(* when keys are the leftmost columns, a row with some key is recognised *)
Theorem visible_keys : forall p rows, (forall c, In c (p_on p) -> (c < length (p_on p))%nat) ->
  (forall r, In r rows -> exists c, In c (p_on p) /\ nth c r None <> None) -> visible p rows.
Proof. intros p rows H1 H2 r Hr. destruct (H2 r Hr) as [c [Hc E]]. exists c. auto. Qed.

Lemma filter_or_disjoint : forall {A} (p q : A -> bool) l, (forall x, In x l -> p x = true -> q x = false) ->
  Permutation (filter p l ++ filter q l) (filter (fun x => p x || q x) l).
Proof.
  induction l as [|a l IH]; intros H; [constructor|]. cbn [filter]. assert (Ha := H a (or_introl eq_refl)).
  specialize (IH ltac:(intros; apply H; auto; now right)). destruct (p a); cbn [orb app].
  - rewrite Ha by auto. now constructor.
  - destruct (q a); auto. rewrite <- Permutation_middle. now constructor.
Qed.
Lemma scan_partition : forall q t, Permutation (scan (filter q t) ++ scan (filter (fun f => negb (q f)) t)) (scan t).
Proof.
  intros q t. unfold scan. rewrite <- flat_map_app. apply flat_map_perm.
  induction t as [|f t IH]; [constructor|]. cbn [filter]. destruct (q f); cbn [negb app].
  - now constructor.
  - rewrite <- Permutation_middle. now constructor.
Qed.
Lemma scan_filter_In : forall q t x, In x (scan (filter q t)) -> exists f, In f t /\ q f = true /\ In x (scan_frag f).
Proof. intros q t x H. apply in_flat_map in H. destruct H as [f [Hf Hx]]. apply filter_In in Hf. exists f. tauto. Qed.

(* no two source batches share a key *)
Definition keys_apart (key : nat) (src : list (list row)) : Prop :=
  forall i j b b' s s', nth_error src i = Some b -> nth_error src j = Some b' -> i <> j -> In s b -> In s' b' ->
    cell_eq false (cell_at s key) (cell_at s' key) = false.

Lemma indexed_once : forall key (l : list trow) src, keys_apart key src ->
  Permutation (flat_map (fun b => filter (fun x => existsb (fun s => cell_eq false (cell_at s key) (cell_at (tr_row x) key)) b) l) src)
    (filter (fun x => existsb (fun s => cell_eq false (cell_at s key) (cell_at (tr_row x) key)) (concat src)) l).
Proof.
  intros key l src. induction src as [|b src IH]; intros H.
  - cbn. rewrite filter_none; auto.
  - cbn [flat_map concat]. rewrite IH.
    2: { intros i j b1 b2 s s' H1 H2 D. apply (H (S i) (S j) b1 b2); auto. }
    rewrite filter_or_disjoint.
    + apply Permutation_refl', filter_ext. intros x. now rewrite existsb_app.
    + intros x _ E. apply existsb_exists in E. destruct E as [s [Hs E]]. apply not_true_is_false. intros C.
      apply existsb_exists in C. destruct C as [s' [Hs' C]]. apply in_concat in Hs'. destruct Hs' as [b' [Hb' Hs']].
      apply In_nth_error in Hb'. destruct Hb' as [j Hj]. specialize (H 0%nat (S j) b b' s s' eq_refl Hj ltac:(discriminate) Hs Hs').
      revert E C H. unfold cell_eq. destruct (cell_at s key), (cell_at (tr_row x) key), (cell_at s' key); try discriminate.
      rewrite !Z.eqb_eq. intros -> ->. rewrite Z.eqb_refl. discriminate.
Qed.

(* the path with an index on the key, for merges that keep unmatched target rows *)
Theorem merge_indexed_exact : forall p w key indexed (srcb : list (list row)) t ts bs new, table_ok t -> addressed t ->
  p_on p = [key] -> p_source p = Keep ->
  visible p (concat srcb) -> visible p (contents t) ->
  (forall s, In s (concat srcb) -> nth key s None <> None) -> keys_apart key srcb ->
  Permutation ts (indexed_targets key indexed t srcb) ->
  Permutation (concat bs) (full_join true (p_on p) (concat srcb) ts) ->
  written (map fst (out_rows p w bs)) new ->
  exists t', merge_table p w t bs new = Some t' /\
    Permutation (contents t') (merged p (concat srcb) (contents t)) /\
    out_stats p w bs = {| st_inserted := spec_inserted p (concat srcb) (contents t); st_updated := spec_updated p (concat srcb) (contents t);
                          st_deleted := spec_deleted p (concat srcb) (contents t) |}.
Proof.
  intros p w key indexed srcb t ts bs new T A On Kp Vs Vt Nn Ka Pt P W.
  set (hits := fun x => existsb (fun s => cell_eq false (cell_at s key) (cell_at (tr_row x) key)) (concat srcb)).
  set (keep := fun x => hits x || negb (indexed (tr_addr x / two32))).
  assert (Addr : forall q x, In x (scan (filter q t)) -> exists f, In f t /\ q f = true /\ tr_addr x / two32 = tf_id f /\ In x (scan t)).
  { intros q x Hx. apply scan_filter_In in Hx. destruct Hx as (f & Hf & Q & Hx).
    assert (In x (scan t)) by (apply in_flat_map; eauto). exists f. split; auto. split; auto. split; auto.
    apply scan_frag_In in Hx. destruct Hx as (o & r & Ho & _ & ->). cbn [tr_addr]. apply addr_div. apply offsets_In in Ho.
    destruct T as [_ F]. destruct (F f Hf). lia. }
  assert (Pk : Permutation ts (filter keep (scan t))).
  { etransitivity; [exact Pt|]. unfold indexed_targets.
    etransitivity; [apply Permutation_app_tail, indexed_once; exact Ka|]. fold hits.
    etransitivity; [|apply filter_perm, (scan_partition (fun f => indexed (tf_id f)) t)]. rewrite filter_app. apply Permutation_app.
    - apply Permutation_refl', filter_ext_in'. intros x Hx. apply Addr in Hx. destruct Hx as (f & _ & Q & E & _). unfold keep.
      rewrite E. rewrite Q. now rewrite orb_false_r.
    - rewrite (filter_all_true keep); [apply Permutation_refl|]. intros x Hx. apply Addr in Hx. destruct Hx as (f & _ & Q & E & _). unfold keep.
      rewrite E, Q. apply orb_true_r. }
  apply (merge_general true keep p w (concat srcb) t ts bs new); auto.
  - intros r Hr. apply Vt. unfold contents. apply (Permutation_in _ (Permutation_map tr_row Pk)) in Hr.
    apply in_map_iff in Hr. destruct Hr as [x [<- Hx]]. apply filter_In in Hx. apply in_map. tauto.
  - right. intros s c Hs Hc. rewrite On in Hc. destruct Hc as [<-|[]]. now apply Nn.
  - intros x Hx Hk. apply orb_false_iff in Hk. destruct Hk as [Hh _]. split.
    + intros s Hs. rewrite On. unfold same_key. cbn [forallb]. rewrite andb_true_r. apply not_true_is_false. intros C.
      assert (hits x = true); [|congruence]. apply existsb_exists. exists s. split; auto.
      revert C. unfold cell_eq, cell_at. destruct (nth key s None), (nth key (tr_row x) None); auto.
    + unfold wants_delete. now rewrite Kp.
Qed.

(* ---- sources with fewer columns ---- *)
Lemma ins_addr_perm : forall {A} (x : N * A) l, Permutation (ins_addr x l) (x :: l).
Proof.
  induction l as [|y l IH]; [constructor; constructor|]. cbn. destruct (fst x <=? fst y); auto.
  rewrite IH. apply perm_swap.
Qed.
Lemma sort_addr_perm : forall {A} (l : list (N * A)), Permutation (sort_addr l) l.
Proof. induction l as [|x l IH]; [constructor|]. cbn. rewrite ins_addr_perm. now constructor. Qed.
Lemma ins_addr_sinc : forall {A} (x : N * A) l, sinc (map fst l) -> ~ In (fst x) (map fst l) -> sinc (map fst (ins_addr x l)).
Proof.
  induction l as [|y l IH]; intros S D; [cbn; split; [intros ? []|exact I]|]. cbn [ins_addr]. destruct (fst x <=? fst y) eqn:E.
  - split; [|exact S]. intros z Hz. destruct S as [S _]. cbn in D. destruct Hz as [<-|Hz]; [|specialize (S z Hz)]; lia.
  - destruct S as [S1 S2]. cbn [map]. split; [|apply IH; [exact S2|cbn in D; tauto]].
    intros z Hz. apply (Permutation_in _ (Permutation_map fst (ins_addr_perm x l))) in Hz. cbn in Hz. cbn in D.
    destruct Hz as [<-|Hz]; [lia|auto].
Qed.
Lemma sort_addr_sinc : forall {A} (l : list (N * A)), NoDup (map fst l) -> sinc (map fst (sort_addr l)).
Proof.
  induction l as [|x l IH]; intros H; [exact I|]. inversion H; subst. cbn. apply ins_addr_sinc; auto.
  intros C. apply H2. apply (Permutation_in _ (Permutation_map fst (sort_addr_perm l))) in C. exact C.
Qed.

(* the value for an address *)
Definition new_value (ups : list (N * row)) (a : N) (old : row) : row :=
  match find (fun u => fst u =? a) ups with Some u => snd u | None => old end.

Lemma interleave_app : forall b1 b2 ups, interleave ups (b1 ++ b2) =
  let '(o1, r1) := interleave ups b1 in let '(o2, r2) := interleave r1 b2 in (o1 ++ o2, r2).
Proof.
  induction b1 as [|[a old] b1 IH]; intros b2 ups; cbn [app interleave].
  - destruct (interleave ups b2). reflexivity.
  - destruct ups as [|[u v] ups]; [|destruct (u =? a)]; rewrite IH;
      match goal with |- context [interleave ?x b1] => destruct (interleave x b1) as [o1 r1] end; destruct (interleave r1 b2); reflexivity.
Qed.
Lemma interleave_all_concat : forall bs ups, concat (interleave_all ups bs) = fst (interleave ups (concat bs)).
Proof.
  induction bs as [|b bs IH]; intros ups; [reflexivity|]. cbn [interleave_all concat]. rewrite interleave_app.
  destruct (interleave ups b) as [o r]. cbn [concat]. rewrite IH. destruct (interleave r (concat bs)). reflexivity.
Qed.
Lemma interleave_length : forall b ups, length (fst (interleave ups b)) = length b.
Proof.
  induction b as [|[a old] b IH]; intros ups; [reflexivity|]. cbn [interleave].
  destruct ups as [|[u v] ups]; [|destruct (u =? a)];
    match goal with |- context [interleave ?x b] => specialize (IH x); destruct (interleave x b) end; cbn in *; lia.
Qed.
Lemma interleave_spec : forall b ups, sinc (map fst b) -> sinc (map fst ups) -> (forall u, In u (map fst ups) -> In u (map fst b)) ->
  fst (interleave ups b) = map (fun p => new_value ups (fst p) (snd p)) b.
Proof.
  induction b as [|[a old] b IH]; intros ups Sb Su H; [reflexivity|]. destruct Sb as [Sa Sb]. cbn [interleave map fst snd].
  destruct ups as [|[u v] ups].
  - specialize (IH [] Sb I ltac:(intros ? [])). destruct (interleave [] b). cbn [fst] in *. now rewrite IH.
  - destruct Su as [Su1 Su2]. destruct (N.eqb_spec u a) as [->|D].
    + specialize (IH ups Sb Su2). destruct (interleave ups b) as [o r]. cbn [fst] in *. rewrite IH.
      * unfold new_value at 2. cbn [find fst]. rewrite N.eqb_refl. f_equal. apply map_ext_in. intros [a' old'] Ha'.
        unfold new_value. cbn [find fst snd]. assert (a < a') by (apply Sa; apply in_map_iff; exists (a', old'); auto).
        replace (a =? a') with false by lia. reflexivity.
      * intros x Hx. specialize (Su1 x Hx). destruct (H x (or_intror Hx)) as [E|?]; [cbn in E; lia|auto].
    + assert (Ha : forall x, In x (map fst ((u, v) :: ups)) -> a < x /\ In x (map fst b)).
      { assert (Hu : a < u) by (destruct (H u (or_introl eq_refl)) as [E|?]; [cbn in E; lia|auto]).
        intros x Hx. assert (a < x) by (destruct Hx as [<-|Hx]; [auto|specialize (Su1 x Hx); cbn in *; lia]). split; auto.
        destruct (H x Hx) as [E|?]; [cbn in E; lia|auto]. }
      specialize (IH ((u, v) :: ups) Sb (conj Su1 Su2) (fun x Hx => proj2 (Ha x Hx))).
      destruct (interleave ((u, v) :: ups) b) as [o r]. cbn [fst] in *. rewrite IH. f_equal.
      unfold new_value. destruct (find _ _) as [y|] eqn:F; auto. apply find_some in F. destruct F as [F1 F2]. apply N.eqb_eq in F2.
      exfalso. destruct (Ha (fst y) (in_map fst _ _ F1)). lia.
Qed.

Lemma scan_frag_alive : forall f, map tr_addr (scan_frag f) = map (addr (tf_id f)) (alive (dv_items (tf_del f)) (N.of_nat (length (tf_rows f)))).
Proof.
  intros f. rewrite scan_frag_addrs. f_equal. unfold alive. rewrite Nat2N.id. apply filter_ext. intros x. now rewrite contains_memN.
Qed.
Lemma scan_frag_row : forall f x, In x (scan_frag f) -> exists o, tr_addr x = addr (tf_id f) o /\ nth_error (tf_rows f) (N.to_nat o) = Some (tr_row x) /\ o < N.of_nat (length (tf_rows f)) /\ ~ dv_has (tf_del f) o.
Proof.
  intros f x H. apply scan_frag_In in H. destruct H as (o & r & Ho & D & ->). exists o. cbn. split; auto. split; [|split; [now apply offsets_In in Ho|auto]].
  unfold offsets in Ho. apply In_nth_error in Ho. destruct Ho as [k Hk]. 
  assert (E : nth_error (nrange 0 (length (tf_rows f))) k = Some o /\ nth_error (tf_rows f) k = Some r).
  { revert Hk. generalize (nrange 0 (length (tf_rows f))) as l. generalize (tf_rows f) as rs. revert k.
    induction k; intros [|y rs] [|z l] E; cbn in *; try discriminate; [now injection E as -> ->|]. now apply IHk. }
  destruct E as [E1 E2]. assert (k < length (tf_rows f))%nat by (apply nth_error_Some; congruence).
  rewrite nrange_nth in E1 by auto. injection E1 as <-. rewrite Nat2N.id. exact E2.
Qed.

(* the new data file of an updated fragment: at every surviving row its new value if it
   has one, else the value it had *)
Theorem new_file_exact : forall f ups old out, frag_ok f ->
  sinc (map fst ups) -> (forall u, In u (map fst ups) -> In u (map tr_addr (scan_frag f))) ->
  concat old = map (fun x => (tr_addr x, tr_row x)) (scan_frag f) ->
  new_file f ups old = Some out ->
  length out = length (tf_rows f) /\
  forall x o, In x (scan_frag f) -> tr_addr x = addr (tf_id f) o -> o < two32 -> nth_error out (N.to_nat o) = Some (new_value ups (tr_addr x) (tr_row x)).
Proof.
  intros f ups old out [I R W B] Su H Eo E. unfold new_file in E. destruct (Nat.eqb_spec (length ups) (length (tf_rows f))) as [L|L].
  - injection E as <-. rewrite map_length. split; auto.
    assert (Eq : map fst ups = map (addr (tf_id f)) (nrange 0 (length (tf_rows f)))).
    { apply sinc_ext; auto; [apply nrange_map_addr, nrange_sinc|]. intros x. split.
      - intros Hx. apply H in Hx. rewrite scan_frag_addrs in Hx. apply in_map_iff in Hx. destruct Hx as [o [<- Ho]]. apply filter_In in Ho.
        apply in_map. tauto.
      - apply (NoDup_length_incl (l := map fst ups) (l' := map (addr (tf_id f)) (nrange 0 (length (tf_rows f))))).
        + now apply sinc_NoDup.
        + rewrite !map_length, nrange_length. lia.
        + intros y Hy. apply H in Hy. rewrite scan_frag_addrs in Hy. apply in_map_iff in Hy. destruct Hy as [o [<- Ho]]. apply filter_In in Ho.
          apply in_map. tauto. }
    intros x o Hx Ea Lo. apply scan_frag_row in Hx. destruct Hx as (o' & Ea' & _ & Lo' & _). rewrite Ea' in Ea. apply addr_inj in Ea; [|lia|auto].
    destruct Ea as [_ <-].
    destruct (nth_error ups (N.to_nat o')) as [[u v]|] eqn:Nu; [|apply nth_error_None in Nu; lia].
    rewrite (map_nth_error snd _ _ Nu). cbn [snd].
    assert (Eu : u = addr (tf_id f) o').
    { pose proof (map_nth_error fst _ _ Nu) as M. rewrite Eq in M. cbn [fst] in M.
      rewrite (map_nth_error (addr (tf_id f)) (N.to_nat o') (nrange 0 (length (tf_rows f))) (d := o')) in M.
      - now injection M.
      - rewrite nrange_nth by lia. f_equal. lia. }
    unfold new_value. rewrite Ea'. subst u. destruct (find _ ups) as [[u' v']|] eqn:F.
    + apply find_some in F. destruct F as [F1 F2]. cbn [fst] in F2. apply N.eqb_eq in F2. subst u'. cbn [snd]. f_equal.
      apply nth_error_In in Nu. assert (ND := sinc_NoDup _ Su). clear - F1 Nu ND. revert F1 Nu ND.
      induction ups as [|[a b] ups IH]; intros F1 Nu ND; [destruct F1|]. cbn in ND. inversion ND; subst.
      destruct F1 as [E1|F1], Nu as [E2|Nu]; try congruence; auto.
      * injection E1 as -> ->. exfalso. apply H1. apply (in_map fst) in Nu. exact Nu.
      * injection E2 as -> ->. exfalso. apply H1. apply (in_map fst) in F1. exact F1.
    + apply nth_error_In in Nu. pose proof (find_none _ _ F _ Nu) as Q. cbn in Q. rewrite N.eqb_refl in Q. discriminate.
  - assert (V := interleave_all_concat old ups). rewrite interleave_spec in V.
    2: { rewrite Eo, map_map. cbn [fst]. rewrite scan_frag_addrs. apply nrange_map_addr, sinc_filter, nrange_sinc. }
    2: auto.
    2: { rewrite Eo, map_map. exact H. }
    rewrite Eo, map_map in V. cbn [fst snd] in V.
    apply (updater_sound (tf_del f) None (N.of_nat (length (tf_rows f)))) in E; auto.
    2: { rewrite V, map_length, <- (map_length tr_addr), scan_frag_alive, map_length. reflexivity. }
    destruct E as [E1 E2]. split; [lia|]. intros x o Hx Ea Lo.
    apply In_nth_error in Hx. destruct Hx as [k Hk]. 
    assert (Ho : nth_error (alive (dv_items (tf_del f)) (N.of_nat (length (tf_rows f)))) k = Some o).
    { pose proof (map_nth_error tr_addr _ _ Hk) as M. rewrite scan_frag_alive in M.
      destruct (nth_error (alive (dv_items (tf_del f)) (N.of_nat (length (tf_rows f)))) k) as [o'|] eqn:Na.
      - rewrite (map_nth_error _ _ _ Na) in M. injection M as M. rewrite Ea in M. apply addr_inj in M; [now destruct M as [_ ->]| |auto].
        apply nth_error_In, alive_In in Na. lia.
      - apply nth_error_None in Na. assert (nth_error (map (addr (tf_id f)) (alive (dv_items (tf_del f)) (N.of_nat (length (tf_rows f))))) k = None)
          by (apply nth_error_None; rewrite map_length; lia). congruence. }
    rewrite (E2 k o Ho), V. rewrite (map_nth_error (fun x0 => new_value ups (tr_addr x0) (tr_row x0)) _ _ Hk). reflexivity.
Qed.

(* the write succeeds unless the updater's first batch is empty while row 0 is deleted *)
Theorem new_file_total : forall f ups b old, frag_ok f -> sinc (map fst ups) -> (forall u, In u (map fst ups) -> In u (map tr_addr (scan_frag f))) ->
  concat (b :: old) = map (fun x => (tr_addr x, tr_row x)) (scan_frag f) -> b <> [] ->
  exists out, new_file f ups (b :: old) = Some out.
Proof.
  intros f ups b old [I R W B] Su H Eo Nb. unfold new_file. destruct (_ =? _)%nat; [eauto|].
  assert (L : length (concat (interleave_all ups (b :: old))) = length (alive (dv_items (tf_del f)) (N.of_nat (length (tf_rows f))))).
  { rewrite interleave_all_concat, interleave_length, Eo, map_length, <- (map_length tr_addr), scan_frag_alive, map_length. reflexivity. }
  cbn [interleave_all] in *. pose proof (interleave_length b ups) as Lb. destruct (interleave ups b) as [o r]. cbn [fst] in Lb.
  apply (updater_complete (tf_del f) (N.of_nat (length (tf_rows f))) o (interleave_all r old) W B L).
  left. intros ->. destruct b; [congruence|discriminate].
Qed.

Lemma left_join_filter : forall (sel : jrow -> bool) ins on src ts,
  (forall t, In t ts -> sel (None, Some t) = false) -> (ins = true \/ forall s, In s src -> sel (Some s, None) = false) ->
  filter sel (left_join ins on src ts) = filter sel (full_join false on src ts).
Proof.
  intros sel ins on src ts H1 H2. unfold left_join, full_join. rewrite filter_app.
  rewrite (filter_all_false sel (map _ _)), app_nil_r.
  - rewrite !filter_flat_map. apply flat_map_ext_in. intros s Hs. destruct (filter _ ts); [|reflexivity].
    destruct ins; [reflexivity|]. destruct H2 as [?|H2]; [discriminate|]. cbn. now rewrite H2.
  - intros j Hj. apply in_map_iff in Hj. destruct Hj as [t [<- Ht]]. apply filter_In in Ht. apply H1. tauto.
Qed.

Lemma map_pairs_addr : forall p w src ts, map (output w) (flat_map (fun s => map (pair_of s) (filter (hit p s) ts)) src) =
  flat_map (fun s => flat_map (fun x => if hit p s x then [(s, Some (tr_addr x))] else []) ts) src.
Proof.
  intros p w src ts. rewrite flat_map_concat_map, concat_map, map_map, flat_map_concat_map. f_equal. apply map_ext. intros s.
  rewrite map_map, map_filter_flat. reflexivity.
Qed.
Lemma partial_output : forall p w src ts bs, visible p src -> visible p (map tr_row ts) ->
  Permutation (concat bs) (left_join (p_insert p) (p_on p) src ts) ->
  Permutation (out_rows p w bs)
    (flat_map (fun x => map (fun s => (s, Some (tr_addr x))) (filter (fun s => hit p s x) src)) ts ++
     map (fun s => (s, None)) (if p_insert p then filter (fun s => negb (existsb (fun x => same_key (p_on p) s (tr_row x)) ts)) src else [])).
Proof.
  intros p w src ts bs Vs Vt P. etransitivity; [apply (out_rows_perm p w bs _ P)|].
  rewrite (left_join_filter (sel_m p (length (p_on p)) w)).
  2: { intros t Ht. apply (sel_right p w ts); auto. }
  2: { right. intros s Hs. apply (sel_left p w src); auto. }
  rewrite (left_join_filter (sel_i p (length (p_on p)) w)).
  2: { intros t Ht. apply (sel_right p w ts); auto. }
  2: { destruct (p_insert p) eqn:E; [now left|right]. intros s Hs. rewrite <- E. apply (sel_left p w src); auto. }
  rewrite (join_matched false p w src ts), (join_inserted false p w src ts) by auto.
  apply Permutation_app_tail.
  transitivity (flat_map (fun s => flat_map (fun x => if hit p s x then [(s, Some (tr_addr x))] else []) ts) src).
  - rewrite map_pairs_addr. apply Permutation_refl.
  - rewrite flat_map_swap. apply Permutation_refl', flat_map_ext_in. intros x _. now rewrite map_filter_flat.
Qed.

Lemma with_addr_perm : forall a b, Permutation a b -> Permutation (with_addr a) (with_addr b).
Proof. intros. now apply flat_map_perm. Qed.
Lemma with_addr_app : forall a b, with_addr (a ++ b) = with_addr a ++ with_addr b.
Proof. intros. apply flat_map_app. Qed.
Lemma with_addr_none : forall (l : list row), with_addr (map (fun s => (s, None)) l) = [].
Proof. induction l; auto. Qed.
Lemma new_rows_none : forall (l : list row), new_rows (map (fun s => (s, None)) l) = l.
Proof. induction l; auto. cbn. now rewrite <- IHl at 2. Qed.
Lemma with_addr_some : forall {X} (g : X -> list row) (h : X -> N) l,
  with_addr (flat_map (fun x => map (fun s => (s, Some (h x))) (g x)) l) = flat_map (fun x => map (fun s => (h x, s)) (g x)) l.
Proof.
  intros X g h l. unfold with_addr. rewrite flat_map_flat_map. apply flat_map_ext_in. intros x _.
  induction (g x) as [|s gs IH]; [reflexivity|]. cbn. now rewrite IH.
Qed.
Lemma new_rows_some : forall {X} (g : X -> list row) (h : X -> N) l,
  new_rows (flat_map (fun x => map (fun s => (s, Some (h x))) (g x)) l) = [].
Proof.
  intros X g h l. unfold new_rows. rewrite flat_map_flat_map. etransitivity; [|apply (flat_map_nil l)]. apply flat_map_ext_in. intros x _.
  induction (g x) as [|s gs IH]; [reflexivity|]. exact IH.
Qed.
Lemma NoDup_flat_keys : forall {X} (g : X -> list row) (h : X -> N) l, NoDup (map h l) -> (forall x, In x l -> (length (g x) <= 1)%nat) ->
  NoDup (map fst (flat_map (fun x => map (fun s => (h x, s)) (g x)) l)).
Proof.
  intros X g h l. induction l as [|x l IH]; intros N H; [constructor|]. inversion N; subst. cbn [flat_map]. rewrite map_app, map_map. cbn [fst].
  specialize (IH H3 ltac:(intros; apply H; now right)). assert (L := H x (or_introl eq_refl)).
  destruct (g x) as [|s [|s' gs]]; cbn [map app]; [exact IH| |cbn in L; lia]. constructor; auto. intros C. apply H2.
  apply in_map_iff in C. destruct C as [[a v] [E C]]. cbn in E. subst a. apply in_flat_map in C. destruct C as [y [Hy C]].
  apply in_map_iff in C. destruct C as [z [E C]]. injection E as E _. rewrite <- E. now apply in_map.
Qed.

(* A merge whose source has only some of the columns, matched rows at most once: every
   row keeps its place, a matched row gets the source's cells, every other row keeps its
   own, and (if asked for) exactly the unmatched source rows are added. *)
Theorem partial_exact : forall p w src t ts bs, table_ok t ->
  visible p src -> visible p (contents t) ->
  (forall r, In r (contents t) -> (length (filter (fun s => same_key (p_on p) s r) src) <= 1)%nat) ->
  Permutation ts (scan t) ->
  Permutation (concat bs) (left_join (p_insert p) (p_on p) src ts) ->
  (forall f old out, In f t -> concat old = map (fun x => (tr_addr x, tr_row x)) (scan_frag f) ->
     new_file f (group (tf_id f) (out_rows p w bs)) old = Some out ->
     length out = length (tf_rows f) /\
     forall o r, nth_error (tf_rows f) (N.to_nat o) = Some r -> ~ dv_has (tf_del f) o ->
       nth_error out (N.to_nat o) = Some (match filter (fun s => same_key (p_on p) s r) src with
                                          | s :: _ => if wants_update p s r then s else r
                                          | [] => r
                                          end)) /\
  (forall f b old, In f t -> concat (b :: old) = map (fun x => (tr_addr x, tr_row x)) (scan_frag f) -> b <> [] ->
     exists out, new_file f (group (tf_id f) (out_rows p w bs)) (b :: old) = Some out) /\
  (forall f, In f t -> (group (tf_id f) (out_rows p w bs) = [] <->
     forall x s, In x (scan_frag f) -> In s src -> same_key (p_on p) s (tr_row x) = true -> wants_update p s (tr_row x) = false)) /\
  Permutation (new_rows (out_rows p w bs)) (if p_insert p then unmatched p src (contents t) else []).
Proof.
  intros p w src t ts bs T Vs Vt Once Pt P.
  assert (Vt' : visible p (map tr_row ts)).
  { intros r Hr. apply Vt. unfold contents. eapply Permutation_in; [apply Permutation_map; exact Pt|exact Hr]. }
  pose proof (partial_output p w src ts bs Vs Vt' P) as PO.
  set (out0 := out_rows p w bs) in *.
  assert (Sub : forall x, (length (filter (fun s => hit p s x) src) <= length (filter (fun s => same_key (p_on p) s (tr_row x)) src))%nat).
  { intros x. unfold hit. rewrite <- filter_filter. apply filter_len_le. }
  assert (Wa : Permutation (with_addr out0) (flat_map (fun x => map (fun s => (tr_addr x, s)) (filter (fun s => hit p s x) src)) (scan t))).
  { etransitivity; [apply with_addr_perm, PO|]. rewrite with_addr_app, with_addr_none, app_nil_r, with_addr_some. now apply flat_map_perm. }
  assert (ND : NoDup (map fst (with_addr out0))).
  { eapply Permutation_NoDup; [apply Permutation_map, Permutation_sym, Wa|]. apply NoDup_flat_keys; [apply sinc_NoDup, scan_sorted; auto|].
    intros x Hx. specialize (Sub x). specialize (Once (tr_row x) (in_map tr_row _ _ Hx)). lia. }
  assert (Gs : forall f, sinc (map fst (group f out0))) by (intros f; apply sinc_map_filter, sort_addr_sinc; auto).
  assert (Gin : forall f a v, In f t -> (In (a, v) (group (tf_id f) out0) <-> exists x, In x (scan_frag f) /\ tr_addr x = a /\ In v src /\ hit p v x = true)).
  { intros f a v Hf. unfold group. rewrite filter_In. cbn [fst].
    assert (Q : In (a, v) (sort_addr (with_addr out0)) <-> In (a, v) (flat_map (fun x => map (fun s => (tr_addr x, s)) (filter (fun s => hit p s x) src)) (scan t))).
    { split; intros H; eapply Permutation_in; try exact H; [|symmetry]; (etransitivity; [apply sort_addr_perm|exact Wa]). }
    rewrite Q, in_flat_map. split.
    - intros [[x [Hx Hv]] Ea]. apply in_map_iff in Hv. destruct Hv as [s [E Hs]]. injection E as <- <-. apply filter_In in Hs.
      exists x. split; [|tauto]. apply N.eqb_eq in Ea. destruct (scan_addr t x T Hx) as (g & o & Hg & Eo & _ & Lo & _ & Hxg).
      rewrite Eo, addr_div in Ea by auto. assert (g = f) by (eapply id_unique; eauto using sinc_ids_NoDup). now subst.
    - intros (x & Hx & <- & Hv & Hh). assert (Hx' : In x (scan t)) by (apply in_flat_map; eauto). split.
      + exists x. split; auto. apply in_map_iff. exists v. split; auto. now apply filter_In.
      + apply scan_frag_row in Hx. destruct Hx as (o & -> & _ & Lo & _). destruct T as [_ F]. destruct (F f Hf). rewrite addr_div by lia. apply N.eqb_refl. }
  assert (Gsub : forall f, In f t -> forall u, In u (map fst (group (tf_id f) out0)) -> In u (map tr_addr (scan_frag f))).
  { intros f Hf u Hu. apply in_map_iff in Hu. destruct Hu as [[a v] [<- Hu]]. apply (Gin f a v Hf) in Hu. destruct Hu as (x & Hx & <- & _). cbn [fst]. now apply in_map. }
  split; [|split; [|split]].
  - intros f old out Hf Eo E. pose proof (proj2 T f Hf) as Fo.
    destruct (new_file_exact f (group (tf_id f) out0) old out Fo (Gs _) (Gsub f Hf) Eo E) as [E1 E2]. split; auto.
    intros o r Hr D.
    assert (Lo : o < N.of_nat (length (tf_rows f))) by (assert (N.to_nat o < length (tf_rows f))%nat by (apply nth_error_Some; congruence); lia).
    assert (Lo' : o < two32) by (destruct Fo; lia).
    set (x := {| tr_id := row_id_at f o; tr_addr := addr (tf_id f) o; tr_row := r |}).
    assert (Hx : In x (scan_frag f)).
    { apply scan_frag_In. destruct (offsets_has f o Lo) as [r' Hr']. exists o, r'. split; auto. split; auto. unfold x. f_equal.
      assert (Hx' : In {| tr_id := row_id_at f o; tr_addr := addr (tf_id f) o; tr_row := r' |} (scan_frag f)) by (apply scan_frag_In; exists o, r'; auto).
      apply scan_frag_row in Hx'. cbn in Hx'. destruct Hx' as (o' & Ea & Hn & Lo2 & _). apply addr_inj in Ea; [|auto|destruct Fo; lia].
      destruct Ea as [_ <-]. congruence. }
    rewrite (E2 x o Hx eq_refl Lo'). f_equal. cbn [x tr_addr tr_row]. unfold new_value.
    assert (Hone := Once r). destruct (find _ (group (tf_id f) out0)) as [[a v]|] eqn:Fi.
    + apply find_some in Fi. destruct Fi as [Fi Ea]. cbn [fst] in Ea. apply N.eqb_eq in Ea. subst a. apply (Gin f _ v Hf) in Fi.
      destruct Fi as (y & Hy & Ey & Hv & Hh). cbn [snd].
      assert (y = x).
      { pose proof (scan_frag_row f y Hy) as (o' & Ey' & Hn & Lo2 & _). apply scan_frag_In in Hy. destruct Hy as (o2 & r2 & Ho2 & _ & ->).
        cbn [tr_addr tr_row] in *. apply offsets_In in Ho2. assert (Fr := fo_rows f Fo).
        apply addr_inj in Ey; [|lia|auto]. destruct Ey as [_ ->]. apply addr_inj in Ey'; [|auto|lia]. destruct Ey' as [_ <-].
        unfold x. f_equal. congruence. }
      subst y. unfold hit in Hh. cbn [x tr_row] in Hh. apply andb_true_iff in Hh. destruct Hh as [Hk Hw].
      assert (Hin : In v (filter (fun s => same_key (p_on p) s r) src)) by (apply filter_In; auto).
      assert (Hl := Hone ltac:(unfold contents; apply in_map_iff; exists x; split; auto; apply in_flat_map; eauto)).
      destruct (filter (fun s => same_key (p_on p) s r) src) as [|s [|s' l]]; [destruct Hin| |cbn in Hl; lia].
      destruct Hin as [<-|[]]. now rewrite Hw.
    + destruct (filter (fun s => same_key (p_on p) s r) src) as [|s l] eqn:Fs; auto. destruct (wants_update p s r) eqn:Hw; auto.
      assert (Hs : In s (filter (fun s => same_key (p_on p) s r) src)) by (rewrite Fs; now left). apply filter_In in Hs. destruct Hs as [Hs Hk].
      assert (G : In (addr (tf_id f) o, s) (group (tf_id f) out0)).
      { apply Gin; auto. exists x. split; auto. split; auto. split; auto. unfold hit. cbn [x tr_row]. now rewrite Hk, Hw. }
      pose proof (find_none _ _ Fi _ G) as Q. cbn in Q. rewrite N.eqb_refl in Q. discriminate.
  - intros f b old Hf Eo Nb. apply new_file_total; auto. now apply (proj2 T).
  - intros f Hf. split.
    + intros E x s Hx Hs Hk. destruct (wants_update p s (tr_row x)) eqn:Hw; auto.
      assert (G : In (tr_addr x, s) (group (tf_id f) out0)) by (apply Gin; auto; exists x; unfold hit; rewrite Hk, Hw; auto).
      rewrite E in G. destruct G.
    + intros H. destruct (group (tf_id f) out0) as [|[a v] l] eqn:E; auto. exfalso.
      assert (G : In (a, v) (group (tf_id f) out0)) by (rewrite E; now left). apply (Gin f a v Hf) in G. destruct G as (x & Hx & _ & Hv & Hh).
      unfold hit in Hh. apply andb_true_iff in Hh. destruct Hh as [Hk Hw]. rewrite (H x v Hx Hv Hk) in Hw. discriminate.
  - etransitivity; [apply flat_map_perm, PO|]. rewrite flat_map_app. fold new_rows.
    change (Permutation (new_rows (flat_map (fun x => map (fun s => (s, Some (tr_addr x))) (filter (fun s => hit p s x) src)) ts) ++
      new_rows (map (fun s => (s, None)) (if p_insert p then filter (fun s => negb (existsb (fun x => same_key (p_on p) s (tr_row x)) ts)) src else [])))
      (if p_insert p then unmatched p src (contents t) else [])).
    rewrite new_rows_some, new_rows_none. cbn [app]. destruct (p_insert p); [|constructor]. apply Permutation_refl'. unfold unmatched.
    apply filter_ext. intros s. f_equal. rewrite (existsb_perm _ _ _ Pt). unfold contents.
    clear. induction (scan t) as [|x l IH]; [reflexivity|]. cbn. now rewrite IH.
Qed.

(* conditional updates with such a source always panic; with a full source never *)
Theorem unzip_partial : forall w, unzip_ok w (joined_columns false w) = true /\ unzip_ok w (joined_columns true w) = false.
Proof.
  intros w. unfold unzip_ok, joined_columns. cbn zeta.
  assert (E1 : ((2 * w + 1) / 2 = w)%nat) by (rewrite Nat.add_comm, Nat.mul_comm, Nat.div_add by lia; reflexivity).
  assert (E2 : ((2 * w + 2) / 2 = w + 1)%nat) by (replace (2 * w + 2)%nat with (0 + (w + 1) * 2)%nat by lia; now rewrite Nat.div_add by lia).
  rewrite E1, E2. split; [rewrite Nat.eqb_refl; cbn; apply Nat.eqb_eq; lia|].
  apply andb_false_iff. left. apply Nat.eqb_neq. lia.
Qed.

(* after an in-place update a field is read from the new file if that file has it, and
   otherwise from where it was; no two files claim it *)
Theorem tombstone_exact : forall files lastf, tombstone (files ++ [lastf]) =
  map (map (fun x => if existsb (Z.eqb x) lastf then (-2)%Z else x)) files ++ [lastf].
Proof. intros. unfold tombstone. rewrite rev_unit. cbn. rewrite map_rev, rev_involutive. reflexivity. Qed.
Theorem tombstone_owner : forall files lastf z i j, (0 <= z)%Z ->
  nth_error (nth i (tombstone (files ++ [lastf])) []) j = Some z <->
  (i = length files /\ nth_error lastf j = Some z) \/ ((i < length files)%nat /\ nth_error (nth i files []) j = Some z /\ ~ In z lastf).
Proof.
  intros files lastf z i j Hz. rewrite tombstone_exact. set (g := fun x => if existsb (Z.eqb x) lastf then (-2)%Z else x).
  destruct (Nat.lt_ge_cases i (length files)) as [L|L].
  - rewrite app_nth1 by (rewrite map_length; auto). change [] with (map g []) at 1. rewrite (map_nth (map g)).
    rewrite nth_error_map. destruct (nth_error (nth i files []) j) as [y|]; cbn [option_map].
    + unfold g. destruct (existsb (Z.eqb y) lastf) eqn:E.
      * apply existsb_exists in E. destruct E as [y' [Hy Ey]]. apply Z.eqb_eq in Ey. subst y'. split; [intros [= <-]; lia|].
        intros [[-> _]|[_ [[= ->] C]]]; [lia|tauto].
      * split; [intros [= ->]; right; split; auto; split; auto; intros C; assert (existsb (Z.eqb z) lastf = true) by (apply existsb_exists; exists z; split; auto; apply Z.eqb_refl); congruence|].
        intros [[-> _]|[_ [[= ->] _]]]; [lia|auto].
    + split; [discriminate|]. intros [[-> _]|[_ [? _]]]; [lia|discriminate].
  - destruct (Nat.eq_dec i (length files)) as [->|D].
    + rewrite app_nth2, map_length, Nat.sub_diag by (rewrite map_length; lia). cbn [nth]. split; [intros; now left|].
      intros [[_ ?]|[? _]]; [auto|lia].
    + rewrite nth_overflow by (rewrite app_length, map_length; cbn; lia). rewrite nth_error_nil'. split; [discriminate|]. intros [[-> _]|[? _]]; lia.
Qed.
