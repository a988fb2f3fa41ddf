(* UPDATE and MERGE INSERT of whole rows. *)
From Coq Require Import List Arith NArith ZArith Bool Lia Permutation.
From Coq Require Import ZifyBool ZifyN ZifyNat.
From Verif Require Import Lib AMap SerdeModel DeletionModel DeletionSpec DeletionProofs MergeModel MergeSpec.
Import ListNotations.
Local Open Scope N_scope.

Lemma addr_div : forall f o, o < two32 -> addr f o / two32 = f.
Proof. intros f o H. unfold addr. rewrite N.div_add_l by discriminate. rewrite N.div_small by auto. lia. Qed.
Lemma addr_mod : forall f o, o < two32 -> addr f o mod two32 = o.
Proof. intros f o H. unfold addr. rewrite N.add_comm, N.mod_add by discriminate. now apply N.mod_small. Qed.
Lemma addr_inj : forall f o f' o', o < two32 -> o' < two32 -> addr f o = addr f' o' -> f = f' /\ o = o'.
Proof.
  intros f o f' o' H H' E. split.
  - rewrite <- (addr_div f o), <- (addr_div f' o'), E by auto. reflexivity.
  - rewrite <- (addr_mod f o), <- (addr_mod f' o'), E by auto. reflexivity.
Qed.
Lemma addr_split : forall x, addr (x / two32) (x mod two32) = x.
Proof. intros x. unfold addr. rewrite (N.div_mod x two32) at 3 by discriminate. lia. Qed.
Local Opaque two32.

Lemma offsets_In : forall f o r, In (o, r) (offsets f) -> o < N.of_nat (length (tf_rows f)).
Proof. intros f o r H. apply in_combine_l in H. apply nrange_In in H. lia. Qed.
Lemma combine_In_l : forall {A B} (a : list A) (b : list B) x, length a = length b -> In x a -> exists y, In (x, y) (combine a b).
Proof.
  induction a; intros [|y b] x L H; simpl in *; try discriminate; [tauto|]. injection L as L.
  destruct H as [->|H]; [eauto|]. destruct (IHa b x L H) as [z Hz]; eauto.
Qed.
Lemma offsets_has : forall f o, o < N.of_nat (length (tf_rows f)) -> exists r, In (o, r) (offsets f).
Proof. intros f o H. apply combine_In_l; [now rewrite nrange_length|]. apply nrange_In. lia. Qed.

Lemma scan_frag_In : forall f x, In x (scan_frag f) <->
  exists o r, In (o, r) (offsets f) /\ ~ dv_has (tf_del f) o /\ x = {| tr_id := row_id_at f o; tr_addr := addr (tf_id f) o; tr_row := r |}.
Proof.
  intros f x. unfold scan_frag. rewrite in_map_iff. split.
  - intros [[o r] [<- H]]. apply filter_In in H. destruct H as [H D]. exists o, r. split; [auto|split; [|reflexivity]].
    rewrite <- contains_spec. cbn in D. now destruct (dv_contains (tf_del f) o).
  - intros (o & r & H & D & ->). exists (o, r). split; [reflexivity|]. apply filter_In. split; auto. cbn.
    rewrite <- contains_spec in D. now destruct (dv_contains (tf_del f) o).
Qed.

(* the address of a scanned row names its fragment and offset *)
Lemma scan_addr : forall t x, table_ok t -> In x (scan t) -> exists f o, In f t /\ tr_addr x = addr (tf_id f) o /\
  o < N.of_nat (length (tf_rows f)) /\ o < two32 /\ tf_id f < two32 /\ In x (scan_frag f).
Proof.
  intros t x [_ F] H. apply in_flat_map in H. destruct H as [f [Hf Hx]]. pose proof Hx as Hx'.
  apply scan_frag_In in Hx. destruct Hx as (o & r & Ho & _ & ->). apply offsets_In in Ho. destruct (F f Hf).
  exists f, o. split; [auto|]. split; [reflexivity|]. split; [auto|]. split; [lia|]. split; auto.
Qed.

Lemma sinc_tl : forall x l, sinc (x :: l) -> sinc l.
Proof. intros x l H. apply (proj1 (sinc_app [x] l)) in H. tauto. Qed.
Lemma sinc_ids_NoDup : forall t, table_ok t -> NoDup (map tf_id t).
Proof. intros t [S _]. now apply sinc_NoDup. Qed.
Lemma id_unique : forall t f g, NoDup (map tf_id t) -> In f t -> In g t -> tf_id f = tf_id g -> f = g.
Proof.
  induction t; intros f g N Hf Hg E; simpl in *; [tauto|]. inversion N; subst.
  destruct Hf as [->|Hf], Hg as [->|Hg]; auto; exfalso; apply H1; [rewrite E|rewrite <- E]; now apply in_map.
Qed.

(* ---- apply_deletions ---- *)
Lemma bitmap_In : forall ids f o, o < two32 -> (In o (bitmap_of ids f) <-> In (addr f o) ids).
Proof.
  intros ids f o H. unfold bitmap_of. rewrite in_map_iff. split.
  - intros [x [E Hx]]. apply filter_In in Hx. destruct Hx as [Hx Q]. rewrite s_of_list_In in Hx.
    apply N.eqb_eq in Q. rewrite <- E, <- Q, addr_split. auto.
  - intros Hx. exists (addr f o). split; [now apply addr_mod|]. apply filter_In. rewrite s_of_list_In. split; auto.
    rewrite addr_div by auto. apply N.eqb_refl.
Qed.
Lemma bitmap_lt : forall ids f x, In x (bitmap_of ids f) -> x < two32.
Proof. intros ids f x H. unfold bitmap_of in H. apply in_map_iff in H. destruct H as [y [<- _]]. now apply N.mod_lt. Qed.

(* ids that name stored rows (or fragments the table does not have) *)
Definition in_rows (t : table) (ids : list N) : Prop :=
  forall f o, In f t -> o < two32 -> In (addr (tf_id f) o) ids -> o < N.of_nat (length (tf_rows f)).

Definition after (ids : list N) (f : tfrag) : list tfrag :=
  match frag_change ids f with CUnchanged => [f] | CModified f' => [f'] | _ => [] end.

Lemma frag_change_spec : forall ids f, frag_ok f ->
  (forall o, o < two32 -> In (addr (tf_id f) o) ids -> o < N.of_nat (length (tf_rows f))) ->
  frag_change ids f <> CErr /\
  (forall i, frag_change ids f = CRemoved i -> i = tf_id f) /\
  (forall f', frag_change ids f = CModified f' -> tf_id f' = tf_id f /\ tf_ids f' = tf_ids f /\ tf_rows f' = tf_rows f /\ frag_ok f') /\
  flat_map scan_frag (after ids f) = filter (fun x => negb (memN (tr_addr x) ids)) (scan_frag f).
Proof.
  intros ids f [I R W B] H. unfold after, frag_change. rewrite (N.mod_small (tf_id f)) by auto.
  assert (Hd : forall o, o < N.of_nat (length (tf_rows f)) ->
     memN (addr (tf_id f) o) ids = memN o (bitmap_of ids (tf_id f))).
  { intros o Ho. apply eq_true_iff_eq. rewrite !memN_In. rewrite bitmap_In by lia. tauto. }
  assert (Hb : forall x, In x (bitmap_of ids (tf_id f)) -> x < N.of_nat (length (tf_rows f))).
  { intros x Hx. pose proof (bitmap_lt _ _ _ Hx). apply H; auto. now apply bitmap_In. }
  assert (Hf : forall f', tf_id f' = tf_id f -> tf_ids f' = tf_ids f -> tf_rows f' = tf_rows f ->
      (forall o, o < N.of_nat (length (tf_rows f)) -> (dv_has (tf_del f') o <-> dv_has (tf_del f) o \/ In o (bitmap_of ids (tf_id f)))) ->
      scan_frag f' = filter (fun x => negb (memN (tr_addr x) ids)) (scan_frag f)).
  { intros f' E1 E2 E3 E4. unfold scan_frag, offsets. rewrite E3.
    assert (G : forall l : list (N * row), (forall o r, In (o, r) l -> o < N.of_nat (length (tf_rows f))) ->
      map (fun p => {| tr_id := row_id_at f' (fst p); tr_addr := addr (tf_id f') (fst p); tr_row := snd p |})
        (filter (fun p => negb (dv_contains (tf_del f') (fst p))) l) =
      filter (fun x => negb (memN (tr_addr x) ids))
       (map (fun p => {| tr_id := row_id_at f (fst p); tr_addr := addr (tf_id f) (fst p); tr_row := snd p |})
        (filter (fun p => negb (dv_contains (tf_del f) (fst p))) l))).
    { induction l as [|[o r] l IH]; intros Hl; [reflexivity|]. cbn [filter fst].
      assert (Ho := Hl o r (or_introl eq_refl)). specialize (IH ltac:(intros; eapply Hl; right; eauto)).
      assert (Hc : dv_contains (tf_del f') o = dv_contains (tf_del f) o || memN o (bitmap_of ids (tf_id f))).
      { apply eq_true_iff_eq. rewrite orb_true_iff, !contains_spec, memN_In. auto. }
      rewrite Hc. destruct (dv_contains (tf_del f) o) eqn:D; cbn; [exact IH|]. rewrite (Hd o Ho).
      destruct (memN o (bitmap_of ids (tf_id f))) eqn:M; cbn; [exact IH|]. rewrite IH. f_equal.
      unfold row_id_at. now rewrite E1, E2. }
    apply G. intros o r Ho. now apply offsets_In in Ho. }
  destruct (bitmap_of ids (tf_id f)) as [|b0 bs] eqn:Eb.
  - split; [discriminate|]. split; [discriminate|]. split; [discriminate|]. cbn [flat_map]. rewrite app_nil_r.
    apply Hf; auto. intros o Ho. cbn. tauto.
  - rewrite <- Eb in *. clear Eb b0 bs. set (b := bitmap_of ids (tf_id f)) in *.
    pose proof (extend_deletions_spec (N.of_nat (length (tf_rows f))) (tf_del f) b (length b) (Some (length b)) W
      ltac:(split; [lia|intros u [= <-]; lia]) B Hb) as X.
    destruct (extend_deletions _ _ _ _ _) eqn:Ex; try contradiction.
    + split; [discriminate|]. split; [intros i [= <-]; auto|]. split; [discriminate|]. cbn [flat_map].
      symmetry. apply filter_all_false. intros x Hx. apply scan_frag_In in Hx. destruct Hx as (o & r & Ho & D & ->). cbn.
      apply offsets_In in Ho. destruct (X o Ho) as [?|M]; [contradiction|]. rewrite Hd by auto.
      apply memN_In in M. now rewrite M.
    + destruct X as (W' & _ & X). split; [discriminate|]. split; [discriminate|]. split.
      { intros f' [= <-]. cbn. split; auto. split; auto. split; auto. constructor; cbn; auto.
        intros x Hx. apply X in Hx. destruct Hx; auto. }
      cbn [flat_map]. rewrite app_nil_r. apply Hf; auto.
Qed.

Lemma apply_deletions_spec : forall t ids, (forall f, In f t -> frag_change ids f <> CErr) ->
  exists ups rms, apply_deletions t ids = Some (ups, rms) /\
    (forall u, In u ups <-> exists f, In f t /\ frag_change ids f = CModified u) /\
    (forall i, In i rms <-> exists f, In f t /\ frag_change ids f = CRemoved i).
Proof.
  induction t as [|f t IH]; intros ids H.
  - exists [], []. split; [reflexivity|]. split; intros x; (split; [intros []|intros [f [[] _]]]).
  - destruct (IH ids ltac:(intros; apply H; now right)) as (ups & rms & E & U & R).
    pose proof (H f (or_introl eq_refl)) as Hf. cbn [apply_deletions]. rewrite E.
    destruct (frag_change ids f) as [|f'|i|] eqn:C; [| | |congruence].
    + exists ups, rms. split; [reflexivity|]. split; intros x; [rewrite U|rewrite R]; split.
      1,3: intros [g [? ?]]; exists g; split; auto; now right.
      all: intros [g [[<-|?] ?]]; [congruence|eauto].
    + exists (f' :: ups), rms. split; [reflexivity|]. split; intros x.
      * split.
        -- intros [<-|Hx]; [exists f; split; [now left|auto]|]. apply U in Hx. destruct Hx as [g [? ?]]. exists g; split; auto; now right.
        -- intros [g [[<-|?] Eg]]; [left; congruence|right; apply U; eauto].
      * rewrite R. split; [intros [g [? ?]]; exists g; split; auto; now right|]. intros [g [[<-|?] ?]]; [congruence|eauto].
    + exists ups, (i :: rms). split; [reflexivity|]. split; intros x.
      * rewrite U. split; [intros [g [? ?]]; exists g; split; auto; now right|]. intros [g [[<-|?] ?]]; [congruence|eauto].
      * split.
        -- intros [<-|Hx]; [exists f; split; [now left|auto]|]. apply R in Hx. destruct Hx as [g [? ?]]. exists g; split; auto; now right.
        -- intros [g [[<-|?] Eg]]; [left; congruence|right; apply R; eauto].
Qed.

Lemma flat_map_ext_in : forall {A B} (f g : A -> list B) l, (forall x, In x l -> f x = g x) -> flat_map f l = flat_map g l.
Proof. induction l; intros H; simpl; auto. rewrite H, IHl; auto; intros; [apply H; now right|now left]. Qed.
Lemma flat_map_flat_map : forall {A B C} (f : A -> list B) (g : B -> list C) l,
  flat_map g (flat_map f l) = flat_map (fun x => flat_map g (f x)) l.
Proof. induction l; simpl; auto. now rewrite flat_map_app, IHl. Qed.
Lemma filter_flat_map : forall {A B} (p : B -> bool) (f : A -> list B) l,
  filter p (flat_map f l) = flat_map (fun x => filter p (f x)) l.
Proof. induction l; simpl; auto. now rewrite filter_app, IHl. Qed.

(* the rows left by a deletion by address, and the table it leaves *)
Theorem deletions_exact : forall t ids new, table_ok t -> in_rows t ids ->
  exists ups rms, apply_deletions t ids = Some (ups, rms) /\
    scan (commit_update t rms ups new) = filter (fun x => negb (memN (tr_addr x) ids)) (scan t) ++ scan new /\
    (forall f, In f (commit_update t rms ups []) -> frag_ok f /\ exists g, In g t /\ tf_id f = tf_id g /\ tf_rows f = tf_rows g /\ tf_ids f = tf_ids g).
Proof.
  intros t ids new T H. pose proof (sinc_ids_NoDup t T) as ND. destruct T as [_ F].
  assert (S : forall f, In f t -> _) by (exact (fun f Hf => frag_change_spec ids f (F f Hf) (fun o Ho Hi => H f o Hf Ho Hi))).
  destruct (apply_deletions_spec t ids) as (ups & rms & E & U & R); [intros f Hf; apply (S f Hf)|].
  exists ups, rms. split; auto.
  assert (K : forall f, In f t -> (if memN (tf_id f) rms then [] else match find (fun u => tf_id u =? tf_id f) ups with Some u => [u] | None => [f] end) = after ids f).
  { intros f Hf. destruct (S f Hf) as (_ & S2 & S3 & _). unfold after. destruct (memN (tf_id f) rms) eqn:M.
    - apply memN_In, R in M. destruct M as [g [Hg Eg]]. pose proof (proj1 (proj2 (S g Hg)) _ Eg) as Ei.
      assert (g = f) by (eapply id_unique; eauto). subst g. now rewrite Eg.
    - apply memN_false in M. destruct (find _ ups) as [u|] eqn:Fi.
      + apply find_some in Fi. destruct Fi as [Hu Ei]. apply N.eqb_eq in Ei. apply U in Hu. destruct Hu as [g [Hg Eg]].
        pose proof (proj1 (proj1 (proj2 (proj2 (S g Hg))) _ Eg)) as Ej.
        assert (g = f) by (eapply id_unique; eauto; congruence). subst g. now rewrite Eg.
      + destruct (frag_change ids f) as [|f'|i|] eqn:C; auto.
        * exfalso. pose proof (find_none _ _ Fi f' (proj2 (U f') ltac:(eauto))) as Q. cbn in Q.
          rewrite (proj1 (S3 f' eq_refl)), N.eqb_refl in Q. discriminate.
        * exfalso. apply M. rewrite (S2 i eq_refl) in C. apply R. eauto.
        * destruct (S f Hf) as (S1 & _). congruence. }
  split.
  - unfold scan, commit_update. rewrite flat_map_app. f_equal. rewrite flat_map_flat_map, filter_flat_map.
    apply flat_map_ext_in. intros f Hf. rewrite (K f Hf). apply S; auto.
  - intros g Hg. unfold commit_update in Hg. rewrite app_nil_r in Hg. apply in_flat_map in Hg. destruct Hg as [f [Hf Hg]].
    rewrite (K f Hf) in Hg. unfold after in Hg. destruct (frag_change ids f) as [|f'|i|] eqn:C; try contradiction; destruct Hg as [<-|[]].
    + split; [now apply F|]. exists f. auto.
    + destruct (proj1 (proj2 (proj2 (S f Hf))) f' C) as (A1 & A2 & A3 & A4). split; auto. exists f. auto.
Qed.

(* ---- the scan is in address order ---- *)
Lemma nrange_map_addr : forall f l, sinc l -> sinc (map (addr f) l).
Proof.
  intros f l. induction l as [|a l IH]; intros S; [exact I|]. destruct S as [S1 S2]. split; [|auto].
  intros y Hy. apply in_map_iff in Hy. destruct Hy as [x [<- Hx]]. apply S1 in Hx. unfold addr. lia.
Qed.
Lemma scan_frag_addrs : forall f, map tr_addr (scan_frag f) =
  map (addr (tf_id f)) (filter (fun o => negb (dv_contains (tf_del f) o)) (nrange 0 (length (tf_rows f)))).
Proof.
  intros f. unfold scan_frag, offsets. generalize (nrange 0 (length (tf_rows f))) as l, (nrange_length (length (tf_rows f)) 0).
  generalize (tf_rows f) as rs. induction rs as [|r rs IH]; intros [|o l] L; simpl in L; try discriminate; [reflexivity|].
  injection L as L. cbn [combine filter fst]. destruct (negb (dv_contains (tf_del f) o)); cbn [map]; rewrite IH by auto; reflexivity.
Qed.
Lemma scan_sorted : forall t, table_ok t -> sinc (map tr_addr (scan t)).
Proof.
  induction t as [|f t IH]; intros T; [exact I|]. unfold scan. cbn [flat_map]. rewrite map_app.
  assert (T' : table_ok t) by (destruct T as [S F]; split; [eapply sinc_tl; exact S|intros; apply F; now right]).
  apply sinc_app. split; [|split].
  - rewrite scan_frag_addrs. apply nrange_map_addr, sinc_filter, nrange_sinc.
  - now apply IH.
  - intros x y Hx Hy. apply in_map_iff in Hx, Hy. destruct Hx as [x0 [<- Hx]], Hy as [y0 [<- Hy]].
    destruct (scan_addr t y0 T' Hy) as (g & o & Hg & -> & _). apply scan_frag_In in Hx. destruct Hx as (o' & r & Ho & _ & ->). cbn [tr_addr].
    apply offsets_In in Ho. destruct T as [S F]. destruct (F f (or_introl eq_refl)).
    assert (L : tf_id f < tf_id g).
    { apply (proj1 (sinc_app [tf_id f] (map tf_id t))) in S. apply S; [now left|now apply in_map]. }
    unfold addr. assert (tf_id f * two32 + two32 <= tf_id g * two32) by (rewrite <- (N.mul_1_l two32) at 2; rewrite <- N.mul_add_distr_r; apply N.mul_le_mono_r; lia). lia.
Qed.
Lemma addressed_ids : forall t, addressed t -> map tr_id (scan t) = map tr_addr (scan t).
Proof.
  intros t A. apply map_ext_in. intros x Hx. apply in_flat_map in Hx. destruct Hx as [f [Hf Hx]]. apply scan_frag_In in Hx.
  destruct Hx as (o & r & _ & _ & ->). cbn. unfold row_id_at. now rewrite A.
Qed.
Lemma addressed_id : forall t x, addressed t -> In x (scan t) -> tr_id x = tr_addr x.
Proof.
  intros t x A Hx. apply in_flat_map in Hx. destruct Hx as [f [Hf Hx]]. apply scan_frag_In in Hx.
  destruct Hx as (o & r & _ & _ & ->). cbn. unfold row_id_at. now rewrite A.
Qed.
Lemma scan_in_rows : forall t ids, table_ok t -> (forall i, In i ids -> exists x, In x (scan t) /\ tr_addr x = i) -> in_rows t ids.
Proof.
  intros t ids T H f o Hf Ho Hi. apply H in Hi. destruct Hi as [x [Hx E]]. destruct (scan_addr t x T Hx) as (g & o' & Hg & E' & L & L2 & _).
  rewrite E' in E. symmetry in E. apply addr_inj in E; auto. destruct E as [E ->].
  assert (f = g) by (eapply id_unique; eauto using sinc_ids_NoDup). now subst g.
Qed.
Lemma append_ids_sinc : forall l last, sinc (match last with Some x => x :: l | None => l end) -> append_ids last l = true.
Proof.
  induction l as [|a l IH]; intros last S; [reflexivity|]. cbn [append_ids]. apply andb_true_iff. split.
  - destruct last as [x|]; auto. apply N.ltb_lt. apply S. now left.
  - apply (IH (Some a)). destruct last; [eapply sinc_tl; exact S|exact S].
Qed.
Lemma sinc_map_filter : forall {A} (g : A -> N) p l, sinc (map g l) -> sinc (map g (filter p l)).
Proof.
  intros A g p l. induction l as [|a l IH]; intros S; [exact S|]. cbn [filter].
  assert (S' := sinc_tl _ _ S). destruct (p a); auto. cbn [map]. change (g a :: map g (filter p l)) with ([g a] ++ map g (filter p l)).
  apply sinc_app. split; [split; [intros y []|exact I]|]. split; [auto|]. intros x y [<-|[]] Hy. apply in_map_iff in Hy. destruct Hy as [z [<- Hz]].
  apply filter_In in Hz. apply (proj1 (sinc_app [g a] (map g l))) in S. apply S; [now left|]. now apply in_map.
Qed.

Lemma scan_written : forall new, (forall f, In f new -> tf_del f = NoDel) -> map tr_row (scan new) = concat (map tf_rows new).
Proof.
  induction new as [|f new IH]; intros H; [reflexivity|]. cbn [map concat]. unfold scan. cbn [flat_map]. rewrite map_app. f_equal.
  - unfold scan_frag, offsets. rewrite (H f (or_introl eq_refl)). cbn [dv_contains negb].
    rewrite filter_all_true by (intros; reflexivity). rewrite map_map. cbn [tr_row].
    generalize (nrange_length (length (tf_rows f)) 0). generalize (nrange 0 (length (tf_rows f))) as l.
    generalize (tf_rows f) as rs. induction rs as [|r rs IHr]; intros [|o l] L; simpl in L; try discriminate; [reflexivity|].
    cbn [combine map snd]. f_equal. apply IHr. now injection L.
  - apply IH. intros. apply H. now right.
Qed.
Lemma contents_app : forall t u, map tr_row (scan (t ++ u)) = map tr_row (scan t) ++ map tr_row (scan u).
Proof. intros. unfold scan. now rewrite flat_map_app, map_app. Qed.

(* ---- UPDATE ---- *)
(* no expression reads a column that another one sets *)
Definition reads_only_own (ups : list (nat * (row -> cell))) : Prop :=
  forall c f, In (c, f) ups -> forall r r', length r = length r' ->
    (forall c', c' = c \/ ~ In c' (map fst ups) -> nth c' r None = nth c' r' None) -> f r = f r'.

Lemma replace_length : forall r c v, (c < length r)%nat -> length (replace_col r c v) = length r.
Proof. intros r c v H. unfold replace_col. rewrite app_length, firstn_length. cbn [length]. rewrite skipn_length. lia. Qed.
Lemma replace_nth : forall r c v i, (c < length r)%nat -> nth i (replace_col r c v) None = if Nat.eqb c i then v else nth i r None.
Proof.
  intros r c v i H. unfold replace_col. assert (L : length (firstn c r) = c) by (rewrite firstn_length; lia).
  destruct (Nat.eqb_spec c i) as [<-|D].
  - rewrite app_nth2 by lia. rewrite L, Nat.sub_diag. reflexivity.
  - destruct (Nat.lt_ge_cases i c) as [Lt|Ge].
    + rewrite app_nth1 by lia. rewrite <- (firstn_skipn c r) at 2. now rewrite app_nth1 by lia.
    + rewrite app_nth2 by lia. rewrite L. destruct (i - c)%nat as [|k] eqn:E; [lia|]. cbn [nth].
      rewrite <- (firstn_skipn (S c) r) at 2. rewrite app_nth2; rewrite firstn_length; [|lia]. f_equal. lia.
Qed.
Lemma set_row_length : forall ups r, length (set_row ups r) = length r.
Proof. intros. unfold set_row. now rewrite map_length, seq_length. Qed.
Lemma set_row_nth : forall ups r i, (i < length r)%nat -> nth i (set_row ups r) None =
  match find (fun u => Nat.eqb (fst u) i) ups with Some u => snd u r | None => nth i r None end.
Proof.
  intros ups r i H. unfold set_row.
  set (g := fun c => match find (fun u => Nat.eqb (fst u) c) ups with Some u => snd u r | None => nth c r None end).
  rewrite (nth_indep _ None (g 0%nat)) by (now rewrite map_length, seq_length). rewrite (map_nth g). now rewrite seq_nth.
Qed.
Lemma find_app : forall {A} (p : A -> bool) l1 l2, find p (l1 ++ l2) = match find p l1 with Some x => Some x | None => find p l2 end.
Proof. induction l1; intros; simpl; auto. destruct (p a); auto. Qed.
Lemma find_col_none : forall (ups : list (nat * (row -> cell))) c, ~ In c (map fst ups) -> find (fun u => Nat.eqb (fst u) c) ups = None.
Proof.
  induction ups as [|[k f] ups IH]; intros c H; simpl in *; auto. destruct (Nat.eqb_spec k c); [tauto|]. apply IH. tauto.
Qed.

Lemma list_eq_nth : forall (a b : row), length a = length b -> (forall i, (i < length a)%nat -> nth i a None = nth i b None) -> a = b.
Proof. intros a b L H. apply (nth_ext a b None None L H). Qed.

Theorem apply_updates_exact : forall ups r, NoDup (map fst ups) -> reads_only_own ups ->
  (forall c, In c (map fst ups) -> (c < length r)%nat) -> apply_updates ups r = set_row ups r.
Proof.
  intros ups r N I B.
  assert (G : forall rest done, ups = done ++ rest ->
    fold_left (fun b cu => replace_col b (fst cu) (snd cu b)) rest (set_row done r) = set_row ups r).
  { induction rest as [|[c f] rest IH]; intros done E.
    - rewrite app_nil_r in E. now subst.
    - cbn [fold_left fst snd]. rewrite <- (IH (done ++ [(c, f)])) by (now rewrite <- app_assoc). f_equal.
      assert (Hc : (c < length r)%nat) by (apply B; rewrite E, map_app; apply in_or_app; right; now left).
      assert (Hd : ~ In c (map fst done)).
      { intros Hd. rewrite E, map_app in N. apply (NoDup_remove_2 (map fst done) (map fst rest) c) in N. apply N.
        apply in_or_app. now left. }
      assert (Ef : f (set_row done r) = f r).
      { apply (I c f); [rewrite E; apply in_or_app; right; now left|apply set_row_length|]. intros c' Hc'.
        destruct (Nat.lt_ge_cases c' (length r)) as [L|L].
        - rewrite set_row_nth by auto. rewrite find_col_none; auto. destruct Hc' as [->|Hc']; auto. intros C. apply Hc'.
          rewrite E, map_app. apply in_or_app. now left.
        - rewrite !nth_overflow; rewrite ?set_row_length; auto. }
      apply list_eq_nth.
      + rewrite replace_length; rewrite !set_row_length; auto.
      + intros i Hi. rewrite replace_length in Hi by (now rewrite set_row_length). rewrite set_row_length in Hi.
        rewrite replace_nth by (now rewrite set_row_length). rewrite !set_row_nth by auto. rewrite find_app. cbn [find fst snd].
        destruct (Nat.eqb_spec c i) as [<-|D].
        * rewrite find_col_none by auto. exact Ef.
        * now destruct (find _ done). }
  specialize (G ups [] eq_refl). unfold apply_updates. rewrite <- G. f_equal.
  apply list_eq_nth; [now rewrite set_row_length|]. intros i Hi. now rewrite set_row_nth.
Qed.

Lemma filter_partition : forall {A B} (p : A -> bool) (g h : A -> B) l,
  Permutation (map g (filter (fun x => negb (p x)) l) ++ map h (filter p l)) (map (fun x => if p x then h x else g x) l).
Proof.
  induction l as [|a l IH]; [constructor|]. cbn [filter map]. destruct (p a); cbn [negb map app].
  - rewrite <- Permutation_middle. now constructor.
  - now constructor.
Qed.

Theorem update_exact : forall cond ups t new, table_ok t -> addressed t ->
  NoDup (map fst ups) -> reads_only_own ups ->
  (forall r, In r (contents t) -> forall c, In c (map fst ups) -> (c < length r)%nat) ->
  written (update_output cond ups t) new ->
  exists t', update_table cond t new = Some t' /\ Permutation (contents t') (updated cond ups (contents t)) /\
    length (contents new) = length (filter (true_on cond) (contents t)).
Proof.
  intros cond ups t new T A N I B [Wr Wd]. unfold update_table.
  assert (Eid : map tr_id (update_rows cond t) = map tr_addr (update_rows cond t)).
  { apply map_ext_in. intros x Hx. apply filter_In in Hx. eapply addressed_id; [exact A|tauto]. }
  rewrite Eid. assert (S : sinc (map tr_addr (update_rows cond t))) by (apply sinc_map_filter, scan_sorted; auto).
  rewrite (append_ids_sinc _ None) by exact S.
  destruct (deletions_exact t (map tr_addr (update_rows cond t)) new T) as (us & rms & E & Es & _).
  { apply scan_in_rows; auto. intros i Hi. apply in_map_iff in Hi. destruct Hi as [x [<- Hx]]. apply filter_In in Hx. exists x. tauto. }
  rewrite E. eexists. split; [reflexivity|].
  assert (El : map tr_row (scan new) = update_output cond ups t) by (rewrite scan_written by auto; exact Wr). split.
  - unfold contents. rewrite Es, map_app, El. unfold updated, update_output, update_rows. rewrite map_map.
    replace (filter (fun x => negb (memN (tr_addr x) (map tr_addr (filter (fun x0 => true_on cond (tr_row x0)) (scan t))))) (scan t))
      with (filter (fun x => negb (true_on cond (tr_row x))) (scan t)).
    + rewrite (map_ext_in (fun x => apply_updates ups (tr_row x)) (fun x => set_row ups (tr_row x))).
      * rewrite filter_partition. apply Permutation_refl'. apply map_ext. intros x. unfold true_on.
        destruct (cond (tr_row x)) as [[|]|]; reflexivity.
      * intros x Hx. apply apply_updates_exact; auto. apply B. apply filter_In in Hx. unfold contents. now apply in_map.
    + apply filter_ext_in'. intros x Hx. f_equal. apply eq_true_iff_eq. rewrite memN_In, in_map_iff. split.
      * intros Hc. exists x. split; auto. apply filter_In. auto.
      * intros [y [Ey Hy]]. apply filter_In in Hy. destruct Hy as [Hy Hc].
        assert (x = y); [|congruence].
        assert (ND := sinc_NoDup _ (scan_sorted t T)). clear - ND Ey Hx Hy. revert Ey Hx Hy ND.
        generalize (scan t) as l. induction l as [|a l IH]; intros E Hx Hy ND; [destruct Hx|]. cbn in ND. inversion ND; subst.
        destruct Hx as [->|Hx], Hy as [->|Hy]; auto; exfalso; apply H1; [rewrite <- E|rewrite E]; now apply in_map.
  - unfold contents at 1. rewrite El. unfold update_output, update_rows. rewrite map_length. unfold contents.
    generalize (scan t) as l. induction l as [|a l IH]; [reflexivity|]. cbn [filter map]. destruct (true_on cond (tr_row a)); cbn; lia.
Qed.

(* ---- MERGE INSERT ---- *)
Lemma flat_map_perm : forall {A B} (g : A -> list B) l l', Permutation l l' -> Permutation (flat_map g l) (flat_map g l').
Proof.
  intros A B g l l' P. induction P; cbn [flat_map]; auto.
  - now apply Permutation_app_head.
  - rewrite !app_assoc. apply Permutation_app_tail, Permutation_app_comm.
  - etransitivity; eauto.
Qed.
Lemma filter_perm : forall {A} (p : A -> bool) l l', Permutation l l' -> Permutation (filter p l) (filter p l').
Proof.
  intros A p l l' P. induction P; cbn [filter]; auto.
  - destruct (p x); auto.
  - destruct (p x), (p y); auto. apply perm_swap.
  - etransitivity; eauto.
Qed.
Lemma flat_map_app2 : forall {A B} (f g : A -> list B) l, Permutation (flat_map (fun x => f x ++ g x) l) (flat_map f l ++ flat_map g l).
Proof.
  induction l as [|a l IH]; cbn [flat_map]; [constructor|]. rewrite IH.
  rewrite <- !app_assoc. apply Permutation_app_head. rewrite !app_assoc. apply Permutation_app_tail, Permutation_app_comm.
Qed.
Lemma flat_map_nil : forall {A B} (l : list A), flat_map (fun _ => @nil B) l = [].
Proof. induction l; auto. Qed.
Lemma flat_map_swap : forall {A B C} (g : A -> B -> list C) la lb,
  Permutation (flat_map (fun a => flat_map (g a) lb) la) (flat_map (fun b => flat_map (fun a => g a b) la) lb).
Proof.
  induction la as [|a la IH]; intros lb; cbn [flat_map].
  - now rewrite flat_map_nil.
  - rewrite IH. symmetry. apply flat_map_app2.
Qed.
Lemma map_filter_flat : forall {A B} (p : A -> bool) (h : A -> B) l, map h (filter p l) = flat_map (fun x => if p x then [h x] else []) l.
Proof. induction l as [|a l IH]; [reflexivity|]. cbn [filter flat_map]. destruct (p a); cbn [map app]; now rewrite IH. Qed.
Lemma filter_flat : forall {A} (p : A -> bool) l, filter p l = flat_map (fun x => if p x then [x] else []) l.
Proof. induction l as [|a l IH]; [reflexivity|]. cbn [filter flat_map]. destruct (p a); cbn [app]; now rewrite IH. Qed.
Lemma flat_map_filter_drop : forall {A B} (k : A -> bool) (g : A -> list B) l, (forall x, In x l -> k x = false -> g x = []) ->
  flat_map g (filter k l) = flat_map g l.
Proof.
  induction l as [|a l IH]; intros H; [reflexivity|]. cbn [filter flat_map].
  assert (Ha := H a (or_introl eq_refl)). destruct (k a); cbn [flat_map]; rewrite IH by (intros; apply H; auto; now right); auto.
  now rewrite Ha.
Qed.
Lemma existsb_perm : forall {A} (p : A -> bool) l l', Permutation l l' -> existsb p l = existsb p l'.
Proof.
  intros A p l l' P. apply eq_true_iff_eq. rewrite !existsb_exists.
  split; intros [x [Hx ?]]; exists x; split; auto; [eapply Permutation_in; eauto|eapply Permutation_in; [symmetry; exact P|auto]].
Qed.
Lemma filter_concat : forall {A} (p : A -> bool) ls, filter p (concat ls) = flat_map (filter p) ls.
Proof. induction ls; cbn; auto. now rewrite filter_app, IHls. Qed.

(* the three selections as one filter each *)
Definition sel_m (p : params) n w (j : jrow) := in_both n w j && wants_update p (left_side w j) (right_side w j).
Definition sel_i (p : params) n w (j : jrow) := p_insert p && left_only n w j.
Definition sel_d (p : params) n w (j : jrow) := right_only n w j && wants_delete p (right_side w j).
Lemma filter_filter : forall {A} (p q : A -> bool) l, filter p (filter q l) = filter (fun x => q x && p x) l.
Proof. induction l as [|a l IH]; [reflexivity|]. cbn. destruct (q a); cbn; [destruct (p a)|]; now rewrite ?IH. Qed.
Lemma filter_none : forall {A} (p : A -> bool) l, (forall x, p x = false) -> filter p l = [].
Proof. intros. apply filter_all_false. auto. Qed.
Lemma matched_filter : forall p n w b, matched_rows p n w b = filter (sel_m p n w) b.
Proof.
  intros p n w b. unfold matched_rows, sel_m, wants_update. destruct (p_matched p).
  - symmetry. apply filter_none. intros. apply andb_false_r.
  - apply filter_ext. intros. now rewrite andb_true_r.
  - now rewrite filter_filter.
Qed.
Lemma not_matched_filter : forall p n w b, not_matched_rows p n w b = filter (sel_i p n w) b.
Proof.
  intros p n w b. unfold not_matched_rows, sel_i. destruct (p_insert p); [reflexivity|]. symmetry. now apply filter_none.
Qed.
Lemma by_source_filter : forall p n w b, by_source_rows p n w b = filter (sel_d p n w) b.
Proof.
  intros p n w b. unfold by_source_rows, sel_d, wants_delete, true_on. destruct (p_source p).
  - symmetry. apply filter_none. intros. apply andb_false_r.
  - apply filter_ext. intros. now rewrite andb_true_r.
  - now rewrite filter_filter.
Qed.

(* what a run over all batches does, for any batching and order of the joined rows *)
Lemma out_rows_perm : forall p w bs js, Permutation (concat bs) js ->
  Permutation (out_rows p w bs) (map (output w) (filter (sel_m p (length (p_on p)) w) js) ++ map (output w) (filter (sel_i p (length (p_on p)) w) js)).
Proof.
  intros p w bs js P. etransitivity.
  2: { apply Permutation_app; apply Permutation_map, filter_perm; exact P. }
  clear P js. unfold out_rows, execute_batch. cbn [fst]. rewrite !filter_concat.
  induction bs as [|b bs IH]; [constructor|]. cbn [flat_map]. rewrite IH, matched_filter, not_matched_filter, !map_app.
  rewrite <- !app_assoc. apply Permutation_app_head. rewrite !app_assoc. apply Permutation_app_tail, Permutation_app_comm.
Qed.
Lemma out_deleted_In : forall p w bs js, Permutation (concat bs) js -> forall i,
  In i (out_deleted p w bs) <-> exists j, In j js /\ (sel_m p (length (p_on p)) w j = true \/ sel_d p (length (p_on p)) w j = true) /\ right_id j = i.
Proof.
  intros p w bs js P i. unfold out_deleted, execute_batch. cbn [fst snd]. rewrite in_flat_map. split.
  - intros [b [Hb Hi]]. rewrite matched_filter, by_source_filter in Hi. apply in_app_or in Hi.
    destruct Hi as [Hi|Hi]; apply in_map_iff in Hi; destruct Hi as [j [<- Hj]]; apply filter_In in Hj; destruct Hj as [Hj Hs];
      exists j; (split; [eapply Permutation_in; [exact P|]; apply in_concat; eauto|auto]).
  - intros [j [Hj [Hs <-]]]. apply (Permutation_in _ (Permutation_sym P)) in Hj. apply in_concat in Hj. destruct Hj as [b [Hb Hj]].
    exists b. split; auto. rewrite matched_filter, by_source_filter. apply in_or_app.
    destruct Hs as [Hs|Hs]; [left|right]; apply in_map; apply filter_In; auto.
Qed.
Lemma out_stats_sum : forall p w bs js, Permutation (concat bs) js ->
  let n := length (p_on p) in
  out_stats p w bs = {| st_inserted := length (filter (sel_i p n w) js); st_updated := length (filter (sel_m p n w) js);
                        st_deleted := length (filter (sel_d p n w) js) |}.
Proof.
  intros p w bs js P n.
  rewrite <- (Permutation_length (filter_perm (sel_i p n w) _ _ P)), <- (Permutation_length (filter_perm (sel_m p n w) _ _ P)),
    <- (Permutation_length (filter_perm (sel_d p n w) _ _ P)). clear P js. unfold out_stats.
  assert (G : forall bs a, fold_left (fun a b => let s := snd (execute_batch p w b) in
                        {| st_inserted := st_inserted a + st_inserted s; st_updated := st_updated a + st_updated s;
                           st_deleted := st_deleted a + st_deleted s |}) bs a =
     {| st_inserted := st_inserted a + length (filter (sel_i p n w) (concat bs)); st_updated := st_updated a + length (filter (sel_m p n w) (concat bs));
        st_deleted := st_deleted a + length (filter (sel_d p n w) (concat bs)) |}).
  { induction bs0 as [|b bs0 IH]; intros a; cbn [fold_left concat].
    - cbn. rewrite !Nat.add_0_r. now destruct a.
    - rewrite IH. cbn [execute_batch snd st_inserted st_updated st_deleted]. rewrite matched_filter, not_matched_filter, by_source_filter.
      rewrite !filter_app, !app_length, !Nat.add_assoc. reflexivity. }
  rewrite G. reflexivity.
Qed.

(* joined rows are told apart by their first columns when these are not all null *)
Lemma not_all_null_iff : forall n r, not_all_null n r = true <-> exists c, (c < n)%nat /\ nth c r None <> None.
Proof.
  intros n r. unfold not_all_null. rewrite existsb_exists. split.
  - intros [x [Hx E]]. destruct x as [z|]; [|discriminate]. apply (In_nth _ _ None) in Hx. destruct Hx as [c [L E']].
    rewrite firstn_length in L. exists c. split; [lia|]. rewrite <- (firstn_skipn n r), app_nth1 by (rewrite firstn_length; lia). congruence.
  - intros [c [L E]]. destruct (Nat.lt_ge_cases c (length r)) as [L'|L']; [|now rewrite nth_overflow in E].
    exists (nth c r None). split; [|now destruct (nth c r None)].
    rewrite <- (firstn_skipn n r) at 1. rewrite app_nth1 by (rewrite firstn_length; lia). apply nth_In. rewrite firstn_length. lia.
Qed.
Lemma null_row_hidden : forall n w, not_all_null n (null_row w) = false.
Proof.
  intros n w. destruct (not_all_null n (null_row w)) eqn:E; auto. apply not_all_null_iff in E. destruct E as [c [_ E]].
  exfalso. apply E. unfold null_row. apply nth_repeat.
Qed.

Lemma keys_match_strict : forall on s t, keys_match false on s t = same_key on s t.
Proof.
  unfold keys_match, same_key, cell_at. intros on s t. induction on as [|c l IH]; [reflexivity|]. cbn [forallb]. rewrite IH. f_equal.
  unfold cell_eq. destruct (nth c s None), (nth c t None); reflexivity.
Qed.
Lemma keys_match_nulls : forall nulls on s t, (forall c, In c on -> nth c s None <> None) -> keys_match nulls on s t = same_key on s t.
Proof.
  unfold keys_match, same_key, cell_at. intros nulls on s t. induction on as [|c l IH]; intros H; [reflexivity|]. cbn [forallb].
  rewrite IH by (intros; apply H; now right). f_equal. specialize (H c (or_introl eq_refl)).
  unfold cell_eq. destruct (nth c s None); [|congruence]. destruct (nth c t None); reflexivity.
Qed.

Section Join.
  Context (nulls : bool) (p : params) (w : nat) (src : list row) (ts : list trow).
  Hypothesis Vs : visible p src.
  Hypothesis Vt : visible p (map tr_row ts).
  Hypothesis Hk : nulls = false \/ forall s c, In s src -> In c (p_on p) -> nth c s None <> None.
  Let n := length (p_on p).
  Let K (s : row) (x : trow) := same_key (p_on p) s (tr_row x).

  Lemma keys_match_same : forall s t, In s src -> keys_match nulls (p_on p) s t = same_key (p_on p) s t.
  Proof. intros s t Hs. destruct Hk as [->|Hn]; [apply keys_match_strict|]. apply keys_match_nulls. intros c. now apply Hn. Qed.
  Lemma src_visible : forall s, In s src -> not_all_null n s = true.
  Proof. intros s Hs. apply not_all_null_iff. now apply Vs. Qed.
  Lemma tgt_visible : forall t, In t ts -> not_all_null n (tr_row t) = true.
  Proof. intros t Ht. apply not_all_null_iff. apply Vt. now apply in_map. Qed.

  Definition pair_of (s : row) (t : trow) : jrow := (Some s, Some t).
  Lemma sel_pair : forall s t, In s src -> In t ts ->
    sel_m p n w (pair_of s t) = wants_update p s (tr_row t) /\ sel_i p n w (pair_of s t) = false /\ sel_d p n w (pair_of s t) = false.
  Proof.
    intros s t Hs Ht. unfold sel_m, sel_i, sel_d, in_both, left_only, right_only, in_left, in_right. cbn [pair_of left_side right_side fst snd].
    rewrite src_visible, tgt_visible by auto. cbn. rewrite andb_false_r. auto.
  Qed.
  Lemma sel_left : forall s, In s src ->
    sel_m p n w (Some s, None) = false /\ sel_i p n w (Some s, None) = p_insert p /\ sel_d p n w (Some s, None) = false.
  Proof.
    intros s Hs. unfold sel_m, sel_i, sel_d, in_both, left_only, right_only, in_left, in_right. cbn [left_side right_side fst snd].
    rewrite src_visible, null_row_hidden by auto. cbn. rewrite andb_true_r. auto.
  Qed.
  Lemma sel_right : forall t, In t ts ->
    sel_m p n w (None, Some t) = false /\ sel_i p n w (None, Some t) = false /\ sel_d p n w (None, Some t) = wants_delete p (tr_row t).
  Proof.
    intros t Ht. unfold sel_m, sel_i, sel_d, in_both, left_only, right_only, in_left, in_right. cbn [left_side right_side fst snd].
    rewrite tgt_visible, null_row_hidden by auto. cbn. rewrite andb_false_r. auto.
  Qed.

  Definition hit (s : row) (x : trow) := K s x && wants_update p s (tr_row x).
  Lemma join_matched : filter (sel_m p n w) (full_join nulls (p_on p) src ts) =
    flat_map (fun s => map (pair_of s) (filter (hit s) ts)) src.
  Proof.
    unfold full_join. rewrite filter_app, filter_flat_map.
    rewrite (filter_all_false _ (map _ _)).
    2: { intros j Hj. apply in_map_iff in Hj. destruct Hj as [t [<- Ht]]. apply filter_In in Ht. apply sel_right. tauto. }
    rewrite app_nil_r. apply flat_map_ext_in. intros s Hs.
    assert (E : filter (fun t => keys_match nulls (p_on p) s (tr_row t)) ts = filter (K s) ts).
    { apply filter_ext. intros t. now apply keys_match_same. }
    rewrite E. assert (G : forall l, (forall t, In t l -> In t ts) -> filter (sel_m p n w) (map (fun t => (Some s, Some t)) (filter (K s) l)) = map (pair_of s) (filter (hit s) l)).
    { induction l as [|t l IH]; intros Hl; [reflexivity|]. cbn [filter]. unfold hit at 1. destruct (K s t) eqn:Ek; cbn [map andb].
      - cbn [filter]. change (Some s, Some t) with (pair_of s t).
        rewrite (proj1 (sel_pair s t Hs (Hl t (or_introl eq_refl)))).
        destruct (wants_update p s (tr_row t)); cbn [map]; rewrite IH by (intros; apply Hl; now right); reflexivity.
      - apply IH. intros; apply Hl; now right. }
    specialize (G ts (fun t H => H)). destruct (filter (K s) ts) as [|t0 l0] eqn:F.
    - rewrite <- G. cbn [map filter]. now rewrite (proj1 (sel_left s Hs)).
    - exact G.
  Qed.
  Lemma join_inserted : map (output w) (filter (sel_i p n w) (full_join nulls (p_on p) src ts)) =
    map (fun s => (s, None)) (if p_insert p then filter (fun s => negb (existsb (K s) ts)) src else []).
  Proof.
    unfold full_join. rewrite filter_app, filter_flat_map.
    rewrite (filter_all_false _ (map _ (filter _ ts))).
    2: { intros j Hj. apply in_map_iff in Hj. destruct Hj as [t [<- Ht]]. apply filter_In in Ht. apply sel_right. tauto. }
    rewrite app_nil_r.
    rewrite (flat_map_ext_in _ (fun s => if p_insert p && negb (existsb (K s) ts) then [(Some s, None)] else [])).
    - destruct (p_insert p); cbn [andb].
      + rewrite <- map_filter_flat. rewrite map_map. reflexivity.
      + rewrite flat_map_nil. reflexivity.
    - intros s Hs.
      assert (E : filter (fun t => keys_match nulls (p_on p) s (tr_row t)) ts = filter (K s) ts).
      { apply filter_ext. intros t. now apply keys_match_same. }
      rewrite E. destruct (filter (K s) ts) as [|t0 l0] eqn:F.
      + cbn [filter]. rewrite (proj1 (proj2 (sel_left s Hs))).
        replace (existsb (K s) ts) with false; [cbn; now destruct (p_insert p)|]. symmetry. destruct (existsb (K s) ts) eqn:X; auto.
        apply existsb_exists in X. destruct X as [t [Ht Kt]]. assert (In t (filter (K s) ts)) by (apply filter_In; auto). rewrite F in H. destruct H.
      + replace (existsb (K s) ts) with true; [|symmetry; apply existsb_exists; exists t0; apply filter_In; rewrite F; now left].
        cbn [negb]. rewrite andb_false_r. apply filter_all_false. intros j Hj. apply in_map_iff in Hj. destruct Hj as [t [<- Ht]].
        rewrite <- F in Ht. apply filter_In in Ht. apply (sel_pair s t Hs). tauto.
  Qed.
  Lemma join_deleted : filter (sel_d p n w) (full_join nulls (p_on p) src ts) =
    map (fun t => (None, Some t)) (filter (fun t => negb (existsb (fun s => K s t) src) && wants_delete p (tr_row t)) ts).
  Proof.
    unfold full_join. rewrite filter_app.
    rewrite (filter_all_false _ (flat_map _ _)).
    2: { intros j Hj. apply in_flat_map in Hj. destruct Hj as [s [Hs Hj]].
         destruct (filter (fun t => keys_match nulls (p_on p) s (tr_row t)) ts) as [|t0 l0] eqn:F.
         - destruct Hj as [<-|[]]. now apply sel_left.
         - rewrite <- F in Hj. apply in_map_iff in Hj. destruct Hj as [t [<- Ht]]. apply filter_In in Ht. apply (sel_pair s t Hs). tauto. }
    cbn [app].
    assert (E : forall t, existsb (fun s => keys_match nulls (p_on p) s (tr_row t)) src = existsb (fun s => K s t) src).
    { intros t. apply eq_true_iff_eq. rewrite !existsb_exists. split; intros [s [Hs X]]; exists s; (split; [auto|]); unfold K in *;
        [rewrite <- keys_match_same by auto|rewrite keys_match_same by auto]; auto. }
    assert (G : forall l, (forall t, In t l -> In t ts) ->
      filter (sel_d p n w) (map (fun t => (None, Some t)) (filter (fun t => negb (existsb (fun s => keys_match nulls (p_on p) s (tr_row t)) src)) l)) =
      map (fun t => (None, Some t)) (filter (fun t => negb (existsb (fun s => K s t) src) && wants_delete p (tr_row t)) l)).
    { induction l as [|t l IH]; intros Hl; [reflexivity|]. cbn [filter]. rewrite E. destruct (existsb (fun s => K s t) src); cbn [negb andb].
      - apply IH. intros; apply Hl; now right.
      - cbn [map filter]. rewrite (proj2 (proj2 (sel_right t (Hl t (or_introl eq_refl))))).
        destruct (wants_delete p (tr_row t)); cbn [map]; rewrite IH by (intros; apply Hl; now right); reflexivity. }
    apply G. auto.
  Qed.
End Join.

Lemma map_pairs : forall p w src ts, map (fun j => fst (output w j)) (flat_map (fun s => map (pair_of s) (filter (hit p s) ts)) src) =
  flat_map (fun s => flat_map (fun x => if hit p s x then [s] else []) ts) src.
Proof.
  intros p w src ts. rewrite flat_map_concat_map, concat_map, map_map, flat_map_concat_map. f_equal. apply map_ext. intros s.
  rewrite map_map, map_filter_flat. reflexivity.
Qed.
Definition gone (p : params) (src : list row) (t : row) : bool :=
  existsb (fun s => same_key (p_on p) s t && wants_update p s t) src ||
  (negb (existsb (fun s => same_key (p_on p) s t) src) && wants_delete p t).
Lemma existsb_filter_nil : forall {A} (q : A -> bool) l, existsb q l = match filter q l with [] => false | _ => true end.
Proof. induction l as [|a l IH]; [reflexivity|]. cbn. destruct (q a); auto. Qed.
Lemma fate_split : forall p src t,
  fate p src t = (if gone p src t then [] else [t]) ++ filter (fun s => same_key (p_on p) s t && wants_update p s t) src.
Proof.
  intros p src t. unfold fate, gone. rewrite !existsb_filter_nil.
  rewrite <- (filter_filter (fun s => wants_update p s t) (fun s => same_key (p_on p) s t) src).
  destruct (filter (fun s => same_key (p_on p) s t) src) as [|m ms] eqn:F; cbn [filter negb].
  - cbn [orb andb]. destruct (wants_delete p t); reflexivity.
  - rewrite andb_false_l, orb_false_r. destruct (filter (fun s => wants_update p s t) (m :: ms)) as [|u us] eqn:F2; cbn [filter] in F2 |- *; rewrite F2; reflexivity.
Qed.

Theorem merge_general : forall nulls keep p w src t ts bs new, table_ok t -> addressed t ->
  visible p src -> visible p (map tr_row ts) ->
  (nulls = false \/ forall s c, In s src -> In c (p_on p) -> nth c s None <> None) ->
  Permutation ts (filter keep (scan t)) ->
  (forall x, In x (scan t) -> keep x = false -> (forall s, In s src -> same_key (p_on p) s (tr_row x) = false) /\ wants_delete p (tr_row x) = false) ->
  Permutation (concat bs) (full_join nulls (p_on p) src ts) ->
  written (map fst (out_rows p w bs)) new ->
  exists t', merge_table p w t bs new = Some t' /\
    Permutation (contents t') (merged p src (contents t)) /\
    out_stats p w bs = {| st_inserted := spec_inserted p src (contents t); st_updated := spec_updated p src (contents t);
                          st_deleted := spec_deleted p src (contents t) |}.
Proof.
  intros nulls keep p w src t ts bs new T A Vs Vt Hk Pt Hkeep P [Wr Wd].
  set (n := length (p_on p)) in *.
  pose proof (join_matched nulls p w src ts Vs Vt Hk) as JM. pose proof (join_inserted nulls p w src ts Vs Vt Hk) as JI.
  pose proof (join_deleted nulls p w src ts Vs Vt Hk) as JD. fold n in JM, JI, JD.
  assert (Tin : forall x, In x ts -> In x (scan t)) by (intros x Hx; apply (Permutation_in _ Pt) in Hx; apply filter_In in Hx; tauto).
  assert (Kept : forall x, In x (scan t) -> gone p src (tr_row x) = true \/ (exists s, In s src /\ same_key (p_on p) s (tr_row x) = true) -> In x ts).
  { intros x Hx G. apply (Permutation_in _ (Permutation_sym Pt)). apply filter_In. split; auto. destruct (keep x) eqn:E; auto.
    exfalso. destruct (Hkeep x Hx E) as [H1 H2]. destruct G as [G|[s [Hs G]]]; [|now rewrite H1 in G].
    unfold gone in G. apply orb_true_iff in G. destruct G as [G|G].
    - apply existsb_exists in G. destruct G as [s [Hs G]]. rewrite H1 in G by auto. discriminate.
    - rewrite H2, andb_false_r in G. discriminate. }
  assert (Del : forall x, In x (scan t) -> memN (tr_addr x) (out_deleted p w bs) = gone p src (tr_row x)).
  { intros x Hx. apply eq_true_iff_eq. rewrite memN_In, (out_deleted_In p w bs _ P). fold n. unfold gone.
    rewrite orb_true_iff, existsb_exists, andb_true_iff, negb_true_iff. 
    assert (Inj : forall y, In y (scan t) -> tr_addr y = tr_addr x -> y = x).
    { intros y Hy E. pose proof (sinc_NoDup _ (scan_sorted t T)) as ND. revert E Hx Hy ND. clear.
      generalize (scan t) as l. induction l as [|a l IH]; intros E Hx Hy ND; [destruct Hx|]. cbn in ND. inversion ND; subst.
      destruct Hx as [->|Hx], Hy as [->|Hy]; auto; exfalso; apply H1; [rewrite <- E|rewrite E]; now apply in_map. }
    split.
    - intros [j [Hj [[Sj|Sj] Ei]]].
      + assert (Hf : In j (filter (sel_m p n w) (full_join nulls (p_on p) src ts))) by (apply filter_In; auto).
        rewrite JM in Hf. apply in_flat_map in Hf. destruct Hf as [s [Hs Hf]]. apply in_map_iff in Hf. destruct Hf as [y [<- Hy]].
        apply filter_In in Hy. destruct Hy as [Hy Hh]. cbn in Ei. rewrite (addressed_id t y A (Tin y Hy)) in Ei. apply Inj in Ei; auto. subst y.
        left. exists s. split; auto.
      + assert (Hf : In j (filter (sel_d p n w) (full_join nulls (p_on p) src ts))) by (apply filter_In; auto).
        rewrite JD in Hf. apply in_map_iff in Hf. destruct Hf as [y [<- Hy]].
        apply filter_In in Hy. destruct Hy as [Hy Hh]. cbn in Ei. rewrite (addressed_id t y A (Tin y Hy)) in Ei. apply Inj in Ei; auto. subst y.
        right. apply andb_true_iff in Hh. destruct Hh as [H1 H2]. apply negb_true_iff in H1. auto.
    - intros [[s [Hs Hh]]|[H1 H2]].
      + assert (Hx' : In x ts) by (apply Kept; auto; right; exists s; split; auto; now apply andb_true_iff in Hh).
        assert (Hf : In (pair_of s x) (filter (sel_m p n w) (full_join nulls (p_on p) src ts))).
        { rewrite JM. apply in_flat_map. exists s. split; auto. apply in_map, filter_In. auto. }
        apply filter_In in Hf. exists (pair_of s x). split; [tauto|]. split; [left; tauto|]. cbn. now apply addressed_id with t.
      + assert (Hx' : In x ts) by (apply Kept; auto; left; unfold gone; rewrite H1, H2; apply orb_true_r).
        assert (Hf : In (None, Some x) (filter (sel_d p n w) (full_join nulls (p_on p) src ts))).
        { rewrite JD. apply (in_map (fun y => (@None row, Some y))). apply filter_In. rewrite H1, H2. auto. }
        apply filter_In in Hf. exists (None, Some x). split; [tauto|]. split; [right; tauto|]. cbn. now apply addressed_id with t. }
  unfold merge_table. destruct (deletions_exact t (out_deleted p w bs) new T) as (us & rms & E & Es & _).
  { apply scan_in_rows; auto. intros i Hi. apply (out_deleted_In p w bs _ P) in Hi. destruct Hi as [j [Hj [Hs <-]]]. fold n in Hs.
    destruct Hs as [Sj|Sj].
    - assert (Hf : In j (filter (sel_m p n w) (full_join nulls (p_on p) src ts))) by (apply filter_In; auto).
      rewrite JM in Hf. apply in_flat_map in Hf. destruct Hf as [s [Hs Hf]]. apply in_map_iff in Hf. destruct Hf as [y [<- Hy]].
      apply filter_In in Hy. exists y. split; [apply Tin; tauto|]. cbn. symmetry. apply addressed_id with t; auto. apply Tin; tauto.
    - assert (Hf : In j (filter (sel_d p n w) (full_join nulls (p_on p) src ts))) by (apply filter_In; auto).
      rewrite JD in Hf. apply in_map_iff in Hf. destruct Hf as [y [<- Hy]].
      apply filter_In in Hy. exists y. split; [apply Tin; tauto|]. cbn. symmetry. apply addressed_id with t; auto. apply Tin; tauto. }
  rewrite E. eexists. split; [reflexivity|].
  (* the written rows *)
  assert (Out : Permutation (map fst (out_rows p w bs))
     (flat_map (fun r => filter (fun s => same_key (p_on p) s r && wants_update p s r) src) (contents t) ++
      (if p_insert p then unmatched p src (contents t) else []))).
  { etransitivity; [apply Permutation_map, (out_rows_perm p w bs _ P)|]. fold n. rewrite map_app, JM, JI. apply Permutation_app.
    - rewrite map_map, map_pairs. 
      transitivity (flat_map (fun s => flat_map (fun x => if hit p s x then [s] else []) ts) src); [reflexivity|].
      { rewrite flat_map_swap. unfold contents. rewrite (flat_map_concat_map _ (map tr_row (scan t))), map_map, <- flat_map_concat_map.
        etransitivity; [apply flat_map_perm, Pt|]. rewrite flat_map_filter_drop.
        * apply Permutation_refl', flat_map_ext_in. intros x _. rewrite filter_flat. reflexivity.
        * intros x Hx Hx'. destruct (Hkeep x Hx Hx') as [H1 _]. etransitivity; [|apply (flat_map_nil src)]. apply flat_map_ext_in. intros s Hs.
          unfold hit. now rewrite H1. }
    - rewrite !map_map. cbn [fst]. rewrite map_id. destruct (p_insert p); [|constructor]. apply Permutation_refl'.
      unfold unmatched. apply filter_ext_in'. intros s Hs. f_equal. unfold contents.
      apply eq_true_iff_eq. rewrite !existsb_exists. split.
      + intros [x [Hx Kx]]. exists (tr_row x). split; auto. apply in_map. auto.
      + intros [r [Hr Kr]]. apply in_map_iff in Hr. destruct Hr as [x [<- Hx]]. exists x. split; auto. apply Kept; auto. right. eauto. }
  split.
  - unfold contents at 1. rewrite Es, map_app, (scan_written new Wd), Wr. unfold merged.
    rewrite (filter_ext_in' _ (fun x => negb (gone p src (tr_row x)))) by (intros x Hx; now rewrite Del).
    etransitivity; [apply Permutation_app_head, Out|]. rewrite app_assoc. apply Permutation_app_tail.
    rewrite (flat_map_ext_in (fate p src) (fun r => (if gone p src r then [] else [r]) ++ filter (fun s => same_key (p_on p) s r && wants_update p s r) src))
      by (intros; apply fate_split).
    rewrite flat_map_app2. apply Permutation_app_tail. unfold contents. rewrite map_filter_flat.
    rewrite (flat_map_concat_map _ (map tr_row (scan t))), map_map, <- flat_map_concat_map. apply Permutation_refl', flat_map_ext_in.
    intros x _. destruct (gone p src (tr_row x)); reflexivity.
  - pose proof (out_stats_sum p w bs _ P) as Est. cbn zeta in Est. fold n in Est. rewrite Est. f_equal.
    + rewrite <- (map_length (output w)), JI, map_length. unfold spec_inserted. destruct (p_insert p); [|reflexivity].
      unfold unmatched. f_equal. apply filter_ext_in'. intros s Hs. f_equal. unfold contents.
      apply eq_true_iff_eq. rewrite !existsb_exists. split.
      * intros [x [Hx Kx]]. exists (tr_row x). split; auto. apply in_map. auto.
      * intros [r [Hr Kr]]. apply in_map_iff in Hr. destruct Hr as [x [<- Hx]]. exists x. split; auto. apply Kept; auto. right. eauto.
    + rewrite JM. unfold spec_updated. rewrite <- (map_length (fun j => fst (output w j))).
      rewrite (Permutation_length (l := map _ _) (l' := flat_map (fun r => filter (fun s => same_key (p_on p) s r && wants_update p s r) src) (contents t))); [reflexivity|].
      rewrite map_pairs.
      { rewrite flat_map_swap. unfold contents. rewrite (flat_map_concat_map _ (map tr_row (scan t))), map_map, <- flat_map_concat_map.
        etransitivity; [apply flat_map_perm, Pt|]. rewrite flat_map_filter_drop.
        -- apply Permutation_refl', flat_map_ext_in. intros x _. rewrite filter_flat. reflexivity.
        -- intros x Hx Hx'. destruct (Hkeep x Hx Hx') as [H1 _]. etransitivity; [|apply (flat_map_nil src)]. apply flat_map_ext_in. intros s Hs.
           unfold hit. now rewrite H1. }
    + rewrite JD, map_length. unfold spec_deleted, count.
      rewrite (Permutation_length (filter_perm _ _ _ Pt)), filter_filter. unfold contents.
      rewrite <- (map_length tr_row), !map_filter_flat. f_equal.
      rewrite filter_flat, (flat_map_concat_map _ (map tr_row (scan t))), map_map, <- flat_map_concat_map. apply flat_map_ext_in.
      intros x Hx. destruct (keep x) eqn:Ek; cbn [andb]; [reflexivity|]. rewrite (proj2 (Hkeep x Hx Ek)), andb_false_r. reflexivity.
Qed.
