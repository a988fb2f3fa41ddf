(* C113: the plan of a nearest-neighbour query against the k nearest rows that pass the filter. *)
From Coq Require Import List Arith NArith ZArith QArith Bool Lia Permutation Sorted.
From Verif Require Import Lib AMap RowIdsModel RowIdsSpec SerdeModel TreeMapModel TreeMapProofs TreeMapProofs2 MaskProofs SeqSetProofs
  DeletionModel TakeModel ScalarModel ScalarProofs BitmapIndexProofs IndexExprModel IndexExprProofs ScanModel ScanProofs ScanIndexProofs ScanExamples ScanCover KnnModel KnnProofs.
Import ListNotations.
Local Open Scope nat_scope.
Local Arguments new_from_parts : simpl never.

(* fragment g is in one of the bitmaps of the index *)
Definition indexed (bs : list (list N)) (g : sfrag) : bool := existsb (fun b => existsb (N.eqb (s_id g)) b) bs.
(* what a vector index knows about the table: its bitmap, each row once, rows of the fragments of its bitmap only *)
Record delta_ok (stable : bool) (ds : list sfrag) (d : delta) (b : list N) : Prop := {
  do_bitmap : dl_bitmap d = Some b;
  do_u32 : Forall (fun k => (k < two32)%N) b;
  do_nodup : NoDup (map fst (dl_entries d));
  do_lt : forall id x, In (id, x) (dl_entries d) -> (id < two64)%N;
  do_ids : forall id x, In (id, x) (dl_entries d) ->
    if stable then (exists g, In g ds /\ In (s_id g) b /\ In id (frag_ids true g)) \/ (exists k, In k b /\ forall g, In g ds -> s_id g <> k)
    else In (fragment_id id) b /\ forall g, In g ds -> s_id g = fragment_id id -> In id (frag_ids false g);
  do_only : forall g id r x, In g ds -> In (id, r) (frag_live stable g) -> In (id, x) (dl_entries d) -> In (s_id g) b }.
(* no two deltas cover the same fragment *)
Definition disjoint_bitmaps (bs : list (list N)) : Prop := ForallOrdPairs (fun b b' => forall k, In k b -> ~ In k b') bs.
(* the mask of a filter can be combined with the mask of the deleted rows *)
Definition combinable (ds : list sfrag) (b : list N) (filtered : option mask) : Prop :=
  match filtered with Some m => mask_wf m /\ (block m = None \/ forall k, In k b -> exists g, In g ds /\ s_id g = k) | None => True end.

Lemma indexed_In : forall bs g, indexed bs g = true <-> exists b, In b bs /\ In (s_id g) b.
Proof.
  intros bs g. unfold indexed. rewrite existsb_exists. split; intros [b [J H]]; exists b; (split; [exact J|]).
  - apply existsb_exists in H as [k [K E]]. apply N.eqb_eq in E. subst. exact K.
  - apply existsb_exists. exists (s_id g). rewrite N.eqb_refl. auto.
Qed.
Lemma frag_or_not : forall (ds : list sfrag) k, (exists g, In g ds /\ s_id g = k) \/ (forall g, In g ds -> s_id g <> k).
Proof.
  intros ds k. induction ds as [|a ds [[g [J E]]|H]]; [right; intros g []| |].
  - left. exists g. split; [right; exact J|exact E].
  - destruct (N.eq_dec (s_id a) k) as [E|E]; [left; exists a; split; [left; reflexivity|exact E]|]. right. intros g [<-|J]; auto.
Qed.
Lemma no_dv_live : forall stable g id, sfrag_ok stable g -> fr_dv (s_frag g) = None -> In id (frag_ids stable g) -> exists r, In (id, r) (frag_live stable g).
Proof.
  intros stable g id O D J. apply In_nth_error in J as [k J]. destruct (row_exists stable g k id O J) as [r R]. exists r. apply live_In; [exact O|]. exists k. split; [exact R|]. unfold deleted. rewrite D. auto.
Qed.
Lemma pre_frags : forall maxf b k, In k (prefilter_fragments maxf [Some b]) <-> In k b.
Proof.
  intros maxf b k. rewrite known_bitmaps by (intros [H|[]]; discriminate). split; [intros [b' [[E|[]] J]]; injection E as <-; exact J|intros J; exists b; split; [left; reflexivity|exact J]].
Qed.
Lemma addr_pos : forall g k id, sfrag_ok false g -> nth_error (frag_ids false g) k = Some id -> row_offset id = N.of_nat k.
Proof.
  intros g k id O J. pose proof O as [I [B _]]. cbn in J. apply addrs_nth in J as [K ->]; [|exact I]. apply (address_roundtrip (s_id g) (N.of_nat k)); [exact I|]. lia.
Qed.
(* the mask of a delta selects its live rows that the filter selects *)
Lemma live_selected : forall stable ds maxf d b, sds_ok stable ds -> delta_ok stable ds d b ->
  exists pm, create_deletion_mask stable ds (prefilter_fragments maxf [dl_bitmap d]) = Some pm /\
    (match pm with Some p => mask_wf p /\ (block p = None \/ ((forall k, In k b -> exists g, In g ds /\ s_id g = k) -> exists t, block p = Some t /\ part_only t)) | None => True end) /\
    forall id x, In (id, x) (dl_entries d) -> (sel_opt pm id = true <-> exists r, In (id, r) (live stable ds)).
Proof.
  intros stable ds maxf d b O D. rewrite (do_bitmap _ _ _ _ D). pose proof (proj1 O) as F. rewrite Forall_forall in F.
  assert (U : Forall (fun k => (k < two32)%N) (prefilter_fragments maxf [Some b])) by (apply Forall_forall; intros k J; apply pre_frags in J; pose proof (do_u32 _ _ _ _ D) as X; rewrite Forall_forall in X; auto).
  assert (NONE : forall pm, pm = @None mask -> (forall k, In k (prefilter_fragments maxf [Some b]) -> exists f, In f ds /\ s_id f = k /\ fr_dv (s_frag f) = None) ->
    forall id x, In (id, x) (dl_entries d) -> (sel_opt pm id = true <-> exists r, In (id, r) (live stable ds))).
  { intros pm -> H id x J. split; [intros _|reflexivity]. assert (G : exists g, In g ds /\ In (s_id g) b /\ In id (frag_ids stable g)).
    { pose proof (do_ids _ _ _ _ D id x J) as Y. destruct stable.
      - destruct Y as [Y|[k [K Y]]]; [exact Y|]. apply (pre_frags maxf) in K. destruct (H k K) as [f [Jf [E _]]]. exfalso. exact (Y f Jf E).
      - destruct Y as [K Y]. destruct (H (fragment_id id)) as [g [Jg [E _]]]; [apply pre_frags; exact K|]. exists g. split; [exact Jg|]. rewrite E. auto. }
    destruct G as [g [Jg [K I]]]. destruct (H (s_id g)) as [g' [Jg' [E V]]]; [apply pre_frags; exact K|]. assert (g' = g) by (eapply same_id; [exact (proj1 (proj2 O))|assumption..]). subst g'.
    destruct (no_dv_live stable g id (F g Jg) V I) as [r R]. exists r. apply live_in_ds. exists g. auto. }
  destruct stable.
  - destruct (deletion_mask_row_ids ds (prefilter_fragments maxf [Some b]) O) as [pm [E H]]. exists pm. split; [exact E|]. destruct pm as [p|]; cbn [masks_row_ids] in H.
    + destruct H as [a [-> [[W _] [_ H]]]]. split; [split; [split; [exact W|exact Logic.I]|left; reflexivity]|]. intros id x J. cbn [sel_opt]. rewrite selected_spec. unfold allows, blocks. cbn [from_allowed allow block negb]. rewrite andb_true_r. apply H. exact (do_lt _ _ _ _ D id x J).
    + split; [exact Logic.I|]. apply NONE; auto.
  - destruct (deletion_mask_addresses ds (prefilter_fragments maxf [Some b]) O U) as [pm [E H]]. exists pm. split; [exact E|]. destruct pm as [p|]; cbn [masks_addresses] in H.
    + destruct H as [t [-> [[W _] [H PO]]]]. split.
      { split; [split; [exact Logic.I|exact W]|right]. intros P. exists t. split; [reflexivity|]. apply PO. intros k K. apply P. apply pre_frags in K. exact K. }
      intros id x J. cbn [sel_opt]. rewrite selected_spec. unfold allows, blocks. cbn [from_block allow block]. cbn [andb]. rewrite negb_true_iff, <- not_true_iff_false, H, pre_frags.
      destruct (do_ids _ _ _ _ D id x J) as [K Y]. split.
      * intros NB. destruct (frag_or_not ds (fragment_id id)) as [[g [Jg Eg]]|X]; [|exfalso; apply NB; auto]. specialize (Y g Jg Eg). apply In_nth_error in Y as [k Y].
        destruct (row_exists false g k id (F g Jg) Y) as [r R]. exists r. apply live_in_ds. exists g. split; [exact Jg|]. apply live_In; [exact (F g Jg)|]. exists k. split; [exact R|]. intros X. apply NB. split; [exact K|]. right. exists g. split; [exact Jg|]. split; [exact Eg|]. rewrite (addr_pos g k id (F g Jg) Y). exact X.
      * intros [r R] [_ B]. apply live_in_ds in R as [g [Jg R]]. apply live_In in R as [k [[R0 R1] R2]]; [|exact (F g Jg)]. pose proof (addr_pos g k id (F g Jg) R0) as P. apply nth_error_In in R0. destruct (addrs_frag g id (F g Jg) R0) as [P1 _]. destruct B as [B|[g' [Jg' [E1 B]]]].
        -- apply (B g Jg). auto.
        -- assert (g' = g) by (eapply same_id; [exact (proj1 (proj2 O))|assumption..|congruence]). subst g'. apply R2. rewrite <- P. exact B.
    + split; [exact Logic.I|]. apply NONE; auto.
Qed.
Lemma delta_selected : forall stable ds maxf d b filtered, sds_ok stable ds -> delta_ok stable ds d b -> combinable ds b filtered ->
  exists msk, delta_mask stable ds maxf filtered d = Some msk /\
    forall id x, In (id, x) (dl_entries d) -> (sel_opt msk id = true <-> sel_opt filtered id = true /\ exists r, In (id, r) (live stable ds)).
Proof.
  intros stable ds maxf d b filtered O D C. destruct (live_selected stable ds maxf d b O D) as [pm [E [W H]]]. unfold delta_mask. rewrite E. cbn [omap]. eexists. split; [reflexivity|].
  intros id x J. rewrite <- (H id x J). destruct filtered as [m|], pm as [p|]; cbn [combined sel_opt]; try tauto.
  destruct C as [WM C], W as [WP P]. rewrite mask_and_spec, andb_true_iff; [reflexivity|exact WM|exact WP|]. unfold blocks_unitable. destruct (block m) as [l|] eqn:BM, (block p) as [r|] eqn:BP; auto.
  destruct C as [C|C]; [discriminate|]. destruct P as [P|P]; [discriminate|]. destruct (P C) as [t [T PO]]. injection T as ->. intros f s _. apply PO.
Qed.

(* ---- parts of a list, with multiplicity ---- *)
Definition part_of {A} (a b : list A) : Prop := exists rest, Permutation b (a ++ rest).
Lemma part_refl : forall {A} (a : list A), part_of a a.
Proof. intros A a. exists []. rewrite app_nil_r. apply Permutation_refl. Qed.
Lemma part_trans : forall {A} (a b c : list A), part_of a b -> part_of b c -> part_of a c.
Proof. intros A a b c [r P] [s Q0]. exists (r ++ s). eapply perm_trans; [exact Q0|]. rewrite app_assoc. apply Permutation_app_tail. exact P. Qed.
Lemma part_app : forall {A} (a b c d : list A), part_of a b -> part_of c d -> part_of (a ++ c) (b ++ d).
Proof.
  intros A a b c d [r P] [s Q0]. exists (r ++ s). eapply perm_trans; [apply Permutation_app; [exact P|exact Q0]|]. rewrite <- !app_assoc. apply Permutation_app_head. rewrite !app_assoc. apply Permutation_app_tail. apply Permutation_app_comm.
Qed.
Lemma part_perm : forall {A} (a b c : list A), part_of a b -> Permutation b c -> part_of a c.
Proof. intros A a b c [r P] Q0. exists r. eapply perm_trans; [apply Permutation_sym; exact Q0|exact P]. Qed.
Lemma part_nearest : forall {A} (key : A -> Q) k C res, nearest key k C res -> part_of res C.
Proof. intros A key k C res [rest [P _]]. exists rest. exact P. Qed.
Lemma part_flat_map : forall {A B} (f g : A -> list B) l, (forall a, In a l -> part_of (f a) (g a)) -> part_of (flat_map f l) (flat_map g l).
Proof. intros A B f g l. induction l as [|a l IH]; intros H; cbn; [apply part_refl|]. apply part_app; [apply H; left; reflexivity|apply IH; intros x J; apply H; right; exact J]. Qed.
Lemma part_incl : forall {A} (a b : list A), part_of a b -> incl a b.
Proof. intros A a b [r P] x J. eapply Permutation_in; [apply Permutation_sym; exact P|]. apply in_or_app. auto. Qed.
Lemma part_nodup : forall {A B} (g : A -> B) (a b : list A), part_of a b -> NoDup (map g b) -> NoDup (map g a).
Proof. intros A B g a b [r P] D. apply (Permutation_map g) in P. eapply Permutation_NoDup in D; [|exact P]. rewrite map_app in D. apply NoDup_app_inv in D. tauto. Qed.
Lemma part_flat_map_list : forall {A B} (g : A -> list B) a b, part_of a b -> part_of (flat_map g a) (flat_map g b).
Proof. intros A B g a b [r P]. exists (flat_map g r). rewrite <- flat_map_app. apply Permutation_flat_map. exact P. Qed.
Lemma filter_split : forall {A} (f : A -> bool) l, Permutation l (filter f l ++ filter (fun x => negb (f x)) l).
Proof.
  intros A f l. induction l as [|a l IH]; cbn; [constructor|]. destruct (f a); cbn; [constructor; exact IH|]. eapply perm_trans; [|apply Permutation_middle]. constructor. exact IH.
Qed.

Section Plan.
  Context {M : Type} (dist : M -> row -> option Q) (sort : forall A, (A -> option Q) -> list A -> list A) (SK : sorts_keys sort).

  Lemma search_part : forall msk n k lo hi d, part_of (search_delta sort msk n k lo hi d) (hits msk lo hi d).
  Proof.
    intros msk n k lo hi d. unfold search_delta, hits, dl_entries. rewrite filter_flat_map. eapply part_trans; [apply part_flat_map|apply part_flat_map_list; exact (probed_some sort SK n (dl_parts d))].
    intros p _. eapply part_nearest. apply (sub_nearest sort SK).
  Qed.

  Section Index.
    Context (stable : bool) (ds : list sfrag) (maxf : N) (filtered : option mask) (e : option expr) (m : M) (q : nquery M) (deltas : list delta) (bs : list (list N)).
    Hypothesis O : sds_ok stable ds.
    Hypothesis DO : Forall2 (delta_ok stable ds) deltas bs.
    Hypothesis DJ : disjoint_bitmaps bs.
    Hypothesis CM : Forall (fun b => combinable ds b filtered) bs.
    (* the filter's mask is right on the rows of the covered fragments *)
    Hypothesis FM : forall g id r, In g ds -> indexed bs g = true -> In (id, r) (frag_live stable g) -> (sel_opt filtered id = true <-> passing e (id, r) = true).

    Definition all_hits (pairs : list (option mask * delta)) : list (N * Q) := concat (map (fun '(msk, d) => hits msk (nq_low q) (nq_up q) d) pairs).
    Definition pairs_ok (pairs : list (option mask * delta)) : Prop :=
      map snd pairs = deltas /\ Forall2 (fun p b => delta_ok stable ds (snd p) b /\ combinable ds b filtered /\
        forall id x, In (id, x) (dl_entries (snd p)) -> (sel_opt (fst p) id = true <-> sel_opt filtered id = true /\ exists r, In (id, r) (live stable ds))) pairs bs.
    Lemma masks_exist : exists pairs, pairs_ok pairs /\
      ann sort stable ds maxf filtered q deltas = Some (top sort (kk q) (fun p => Some (snd p)) (concat (map (fun '(msk, d) => search_delta sort msk (nq_probes q) (kk q) (nq_low q) (nq_up q) d) pairs))).
    Proof.
      unfold ann, pairs_ok. cut (exists pairs, (map snd pairs = deltas /\ Forall2 (fun p b => delta_ok stable ds (snd p) b /\ combinable ds b filtered /\
        forall id x, In (id, x) (dl_entries (snd p)) -> (sel_opt (fst p) id = true <-> sel_opt filtered id = true /\ exists r, In (id, r) (live stable ds))) pairs bs) /\
        sequence_opt (map (fun d => omap (fun msk => search_delta sort msk (nq_probes q) (kk q) (nq_low q) (nq_up q) d) (delta_mask stable ds maxf filtered d)) deltas) = Some (map (fun '(msk, d) => search_delta sort msk (nq_probes q) (kk q) (nq_low q) (nq_up q) d) pairs)).
      { intros [pairs [A B]]. exists pairs. split; [exact A|]. rewrite B. reflexivity. }
      clear DJ FM. revert CM. induction DO as [|d b deltas' bs' D DS IH]; intros CM'.
      - exists []. split; [split; [reflexivity|constructor]|reflexivity].
      - inversion CM' as [|? ? C1 C2]; subst. destruct (IH DS C2) as [pairs [[A B] E]]. destruct (delta_selected stable ds maxf d b filtered O D C1) as [msk [X Y]].
        exists ((msk, d) :: pairs). split; [split; [cbn; f_equal; exact A|constructor; [cbn [fst snd]; auto|exact B]]|]. cbn [map sequence_opt]. rewrite X. cbn [omap sequence_opt]. rewrite E. reflexivity.
    Qed.
    Lemma hits_spec : forall pairs, pairs_ok pairs -> forall id x, In (id, x) (all_hits pairs) <->
      in_range (nq_low q) (nq_up q) x = true /\ (exists d, In d deltas /\ In (id, x) (dl_entries d)) /\ exists r, In (id, r) (filter (passing e) (live stable (filter (indexed bs) ds))).
    Proof.
      intros pairs [MS F] id x. subst deltas. unfold all_hits. rewrite in_concat. split.
      - intros [l [J1 J2]]. apply in_map_iff in J1 as [[msk d] [<- J1]]. apply filter_In in J2 as [J2 S0]. cbn [fst snd] in S0. apply andb_true_iff in S0 as [S1 S2]. split; [exact S2|].
        split; [exists d; split; [apply in_map_iff; exists (msk, d); auto|exact J2]|].
        assert (X : exists b, In b bs /\ delta_ok stable ds d b /\ forall id x, In (id, x) (dl_entries d) -> (sel_opt msk id = true <-> sel_opt filtered id = true /\ exists r, In (id, r) (live stable ds))).
        { clear -F J1. induction F as [|p b ps bs' [H1 [_ H2]] F IH]; [destruct J1|]. destruct J1 as [->|J1]; [exists b; split; [left; reflexivity|auto]|]. destruct (IH J1) as [b' [A B]]. exists b'. split; [right; exact A|exact B]. }
        destruct X as [b [Jb [D H]]]. apply (H id x J2) in S1 as [S1 [r R]]. exists r. apply live_in_ds in R as [g [Jg R]].
        assert (IG : indexed bs g = true) by (apply indexed_In; exists b; split; [exact Jb|eapply do_only; eauto]).
        apply filter_In. split; [apply live_in_ds; exists g; split; [apply filter_In; auto|exact R]|]. apply (FM g id r Jg IG R). exact S1.
      - intros [R [[d [Jd J]] [r P]]]. apply filter_In in P as [P PE]. apply live_in_ds in P as [g [Jg P]]. apply filter_In in Jg as [Jg IG]. apply in_map_iff in Jd as [[msk d'] [<- Jd]]. cbn [snd] in J.
        exists (hits msk (nq_low q) (nq_up q) d'). split; [apply in_map_iff; exists (msk, d'); auto|]. apply filter_In. split; [exact J|]. cbn [fst snd]. rewrite R, andb_true_r.
        assert (H : forall id x, In (id, x) (dl_entries d') -> (sel_opt msk id = true <-> sel_opt filtered id = true /\ exists r, In (id, r) (live stable ds))).
        { clear -F Jd. induction F as [|p b ps bs' [_ [_ H2]] F IH]; [destruct Jd|]. destruct Jd as [->|J1]; [exact H2|apply IH; exact J1]. }
        apply (H id x J). split; [apply (FM g id r Jg IG P); exact PE|]. exists r. apply live_in_ds. exists g. auto.
    Qed.
    Lemma hits_nodup : forall pairs, pairs_ok pairs -> NoDup (map fst (all_hits pairs)).
    Proof.
      intros pairs [_ F]. unfold all_hits. clear DO CM FM. revert DJ. induction F as [|[msk d] b ps bs' [D [_ H]] F IH]; intros DJ'; [constructor|]. cbn [map concat]. rewrite map_app.
      inversion DJ' as [|? ? D1 D2]; subst. apply NoDup_app_intro.
      - apply NoDup_map_filter. exact (do_nodup _ _ _ _ D).
      - apply IH. exact D2.
      - intros id J1 J2. apply in_map_iff in J1 as [[i x] [<- J1]]. apply in_map_iff in J2 as [[i' y] [E J2]]. cbn in E. subst i'. cbn [fst snd] in *. apply filter_In in J1 as [J1 S0]. apply andb_true_iff in S0 as [S0 _]. cbn [fst] in S0. apply (H i x J1) in S0 as [_ [r R]].
        apply live_in_ds in R as [g [Jg R]]. assert (K : In (s_id g) b) by (eapply do_only; eauto).
        apply in_concat in J2 as [l [J2 J3]]. apply in_map_iff in J2 as [[msk' d'] [<- J2]]. apply filter_In in J3 as [J3 _].
        assert (K2 : exists b', In b' bs' /\ delta_ok stable ds d' b').
        { clear -F J2. induction F as [|p b' ps' bs'' [H1 _] F IH]; [destruct J2|]. destruct J2 as [->|J2]; [exists b'; split; [left; reflexivity|exact H1]|]. destruct (IH J2) as [b2 [A B]]. exists b2. split; [right; exact A|exact B]. }
        destruct K2 as [b' [Jb' D']]. rewrite Forall_forall in D1. apply (D1 b' Jb' (s_id g) K). eapply do_only; eauto.
    Qed.

    (* what the index finds: live rows of its fragments that pass the filter, each once *)
    Definition found_rows (found : list (N * Q)) (A : list (N * row)) : Prop :=
      take_ids stable ds (map fst found) = Some A /\ map fst A = map fst found /\ NoDup (map fst A) /\ length A <= kk q /\
      incl A (filter (passing e) (live stable (filter (indexed bs) ds))) /\
      StronglySorted (fun a b => (snd a <= snd b)%Q) found /\
      forall id x, In (id, x) found -> in_range (nq_low q) (nq_up q) x = true /\ exists d, In d deltas /\ In (id, x) (dl_entries d).
    Lemma live_unique : forall id r r', In (id, r) (live stable ds) -> In (id, r') (live stable ds) -> r = r'.
    Proof. intros id r r' J J'. pose proof (live_fst_nodup stable ds O) as D. apply (find_live _ _ _ D) in J. apply (find_live _ _ _ D) in J'. congruence. Qed.
    Lemma ann_found : exists found A, ann sort stable ds maxf filtered q deltas = Some found /\ found_rows found A.
    Proof.
      destruct masks_exist as [pairs [PO E]]. set (cand := concat (map (fun '(msk, d) => search_delta sort msk (nq_probes q) (kk q) (nq_low q) (nq_up q) d) pairs)) in E.
      set (found := top sort (kk q) (fun p => Some (snd p)) cand) in E. pose proof (top_nearest sort SK snd (kk q) cand) as NR. fold found in NR.
      assert (PH : part_of found (all_hits pairs)).
      { eapply part_trans; [eapply part_nearest; exact NR|]. unfold cand, all_hits. rewrite <- !flat_map_concat_map. apply part_flat_map. intros [msk d] _. apply search_part. }
      pose proof (part_nodup fst _ _ PH (hits_nodup pairs PO)) as ND. pose proof (part_incl _ _ PH) as IN.
      assert (HS : forall id, In id (map fst found) -> exists r, In (id, r) (filter (passing e) (live stable (filter (indexed bs) ds)))).
      { intros id J. apply in_map_iff in J as [[i x] [<- J]]. apply IN in J. apply (hits_spec pairs PO) in J. tauto. }
      assert (SUB : incl (live stable (filter (indexed bs) ds)) (live stable ds)) by (apply live_mono; intros g J; apply filter_In in J; tauto).
      destruct (take_ids_spec stable ds (map fst found) O ND) as [A [T [MF Q0]]].
      { intros id J. destruct (HS id J) as [r R]. exists r. apply filter_In in R as [R _]. apply SUB. exact R. }
      exists found, A. split; [exact E|]. split; [exact T|]. split; [exact MF|]. split; [rewrite MF; exact ND|]. split.
      { rewrite <- (map_length fst A), MF, map_length. exact (nearest_length _ _ _ _ NR). }
      split.
      { intros [id r] J. apply Q0 in J as [J L]. destruct (HS id J) as [r' R]. assert (r' = r); [|subst; exact R]. apply filter_In in R as [R _]. eapply live_unique; [apply SUB; exact R|exact L]. }
      split; [destruct NR as [rest [_ [_ [SS _]]]]; exact SS|]. intros id x J. apply IN in J. apply (hits_spec pairs PO) in J. tauto.
    Qed.

    (* every partition is probed and the index has the exact distances: the nearest of its rows *)
    Hypothesis COMPLETE : forall d b g id r, In d deltas -> dl_bitmap d = Some b -> In g ds -> In (s_id g) b -> In (id, r) (frag_live stable g) -> dist m r <> None -> exists x, In (id, x) (dl_entries d).
    Hypothesis EXACT : forall d id r x, In d deltas -> In (id, r) (live stable ds) -> In (id, x) (dl_entries d) -> dist m r = Some x.
    Hypothesis ALL : forall d, In d deltas -> length (dl_parts d) <= nq_probes q.
    Lemma ann_exact : exists found res, ann sort stable ds maxf filtered q deltas = Some found /\ take_ids stable ds (map fst found) = Some (map fst res) /\
      map snd found = map snd res /\ nearest snd (kk q) (near dist m (nq_low q) (nq_up q) (filter (passing e) (live stable (filter (indexed bs) ds)))) res.
    Proof.
      destruct masks_exist as [pairs [PO E]]. set (cand := concat (map (fun '(msk, d) => search_delta sort msk (nq_probes q) (kk q) (nq_low q) (nq_up q) d) pairs)) in E.
      set (found := top sort (kk q) (fun p => Some (snd p)) cand) in E. pose proof (top_nearest sort SK snd (kk q) cand) as NR. fold found in NR.
      rewrite <- (app_nil_r cand) in NR. apply (deltas_concat sort SK) in NR; [|intros msk d J; apply ALL; rewrite <- (proj1 PO); apply in_map_iff; exists (msk, d); auto|apply Nat.le_refl]. rewrite app_nil_r in NR. fold (all_hits pairs) in NR.
      set (C := near dist m (nq_low q) (nq_up q) (filter (passing e) (live stable (filter (indexed bs) ds)))) in *.
      assert (SUB : incl (live stable (filter (indexed bs) ds)) (live stable ds)) by (apply live_mono; intros g J; apply filter_In in J; tauto).
      assert (OI : sds_ok stable (filter (indexed bs) ds)) by (eapply sub_ds_ok; [exact O|intros g J; apply filter_In in J; tauto|apply NoDup_map_filter; exact (proj1 (proj2 O))]).
      assert (NC : NoDup (map (fun p => fst (fst p)) C)).
      { unfold C, near. assert (X : NoDup (map fst (filter (passing e) (live stable (filter (indexed bs) ds))))) by (apply NoDup_map_filter; apply live_fst_nodup; exact OI).
        revert X. generalize (filter (passing e) (live stable (filter (indexed bs) ds))) as l. induction l as [|p l IH]; cbn; intros X; [constructor|]. inversion X as [|? ? X1 X2]; subst. rewrite map_app. apply NoDup_app_intro; [|apply IH; exact X2|].
        - destruct (dist m (snd p)); [|constructor]. destruct (in_range (nq_low q) (nq_up q) q0); repeat constructor; intros [].
        - intros id J1 J2. destruct (dist m (snd p)); [|destruct J1]. destruct (in_range (nq_low q) (nq_up q) q0); [|destruct J1]. destruct J1 as [<-|[]]. cbn [fst] in *. apply X1. apply in_map_iff in J2 as [[p' d'] [E2 J2]]. cbn [fst] in E2. rewrite <- E2.
          apply in_flat_map in J2 as [p2 [J2 J3]]. destruct (dist m (snd p2)); [|destruct J3]. destruct (in_range (nq_low q) (nq_up q) q1); [|destruct J3]. destruct J3 as [J3|[]]. injection J3 as <- _. apply in_map. exact J2. }
      assert (PC : Permutation (all_hits pairs) (map (fun p => (fst (fst p), snd p)) C)).
      { apply NoDup_Permutation; [eapply NoDup_map_inv; exact (hits_nodup pairs PO)|apply (NoDup_map_inv fst); rewrite map_map; exact NC|]. intros [id x]. rewrite (hits_spec pairs PO), in_map_iff. split.
        - intros [R [[d [Jd J]] [r P]]]. exists ((id, r), x). split; [reflexivity|]. unfold C. apply near_In. split; [exact P|]. split; [|exact R]. cbn [snd]. apply filter_In in P as [P _]. eapply EXACT; eauto.
        - intros [[[i r] x'] [E2 J]]. cbn [fst snd] in E2. injection E2 as -> ->. unfold C in J. apply near_In in J as [P [D R]]. cbn [snd] in D. split; [exact R|]. split; [|exists r; exact P].
          pose proof P as P0. apply filter_In in P0 as [P0 _]. pose proof (SUB _ P0) as P1. apply live_in_ds in P0 as [g [Jg P0]]. apply filter_In in Jg as [Jg IG]. apply indexed_In in IG as [b [Jb K]].
          assert (X : exists d, In d deltas /\ dl_bitmap d = Some b).
          { clear -DO Jb. induction DO as [|d b' dl bl H F IH]; [destruct Jb|]. destruct Jb as [->|Jb]; [exists d; split; [left; reflexivity|exact (do_bitmap _ _ _ _ H)]|]. destruct (IH F Jb) as [d' [A B]]. exists d'. split; [right; exact A|exact B]. }
          destruct X as [d [Jd Eb]]. destruct (COMPLETE d b g id r Jd Eb Jg K P0) as [y Y]; [congruence|]. exists d. split; [exact Jd|]. assert (Z : dist m r = Some y) by (eapply EXACT; eauto). assert (y = x) by congruence. subst y. exact Y. }
      apply (nearest_perm _ _ _ _ _ PC) in NR. apply nearest_unmap in NR as [res [EF NR]]. cbn [snd] in NR. exists found, res. split; [exact E|].
      assert (ND : NoDup (map fst found)).
      { rewrite EF, map_map. cbn [fst]. eapply part_nodup; [eapply part_nearest; exact NR|exact NC]. }
      assert (INC : forall p, In p res -> In (fst p) (live stable ds)).
      { intros [p d] J. apply (nearest_incl _ _ _ _ NR) in J. unfold C in J. apply near_In in J as [J _]. apply filter_In in J as [J _]. apply SUB. exact J. }
      split; [|split; [rewrite EF, map_map; apply map_ext; intros; reflexivity|exact NR]].
      rewrite EF, map_map. cbn [fst]. unfold take_ids. rewrite map_map. clear -INC O. induction res as [|[[i r] d] res IH]; [reflexivity|]. cbn [map fst]. rewrite (find_live (live stable ds) i r (live_fst_nodup stable ds O) (INC _ (or_introl eq_refl))). cbn [sequence_opt].
      rewrite IH by (intros p J; apply INC; right; exact J). reflexivity.
    Qed.
  End Index.
End Plan.
