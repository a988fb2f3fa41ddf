(* C65, C66: filtering the addresses (ids) of deleted rows out of a request. *)
From Coq Require Import List Arith NArith Bool Lia Permutation.
From Coq Require Import ZifyBool ZifyN ZifyNat.
From Verif Require Import Lib AMap RowIdsModel RowIdsSpec SerdeModel ReadParamsModel ReadParamsProofs TreeMapModel TreeMapProofs
  DeletionModel DeletionSpec DeletionProofs StreamModel StreamProofs TakeModel TakeProofs TakeOffsets.
Import ListNotations.
Local Open Scope N_scope.

(* ---- the fragments named by a request ---- *)
Lemma skip_missing_spec : forall ids fid, sinc ids -> exists a b, ids = a ++ b /\ skip_missing fid ids = (length a, b) /\
  (forall i, In i a -> i < fid) /\ (forall i, In i b -> fid <= i).
Proof.
  induction ids as [|i t IH]; intros fid Hs; [exists [], []; repeat split; cbn; tauto|].
  destruct Hs as [H1 H2]. cbn [skip_missing]. destruct (i <? fid) eqn:E.
  - destruct (IH fid H2) as [a [b [-> [E2 [E3 E4]]]]]. rewrite E2. exists (i :: a), b. repeat split; auto.
    intros j [<-|Hj]; auto. lia.
  - exists [], (i :: t). repeat split; auto; [cbn; tauto|]. intros j [<-|Hj]; [lia|]. specialize (H1 j Hj). lia.
Qed.

Definition find_frag {A} (fs : list (frag A)) (i : N) : option (frag A) := find (fun g => fr_id g =? i) fs.
Lemma find_frag_none : forall {A} (fs : list (frag A)) i, (forall f, In f fs -> i < fr_id f) -> find_frag fs i = None.
Proof.
  unfold find_frag. induction fs as [|f t IH]; intros i H; auto. cbn [find].
  destruct (fr_id f =? i) eqn:E; [specialize (H f (or_introl eq_refl)); lia|]. apply IH. intros; apply H; now right.
Qed.

Lemma frags_from_ids_spec : forall {A} (fs : list (frag A)) ids, sinc (map fr_id fs) -> (forall f, In f fs -> fr_id f < two32) ->
  sinc ids -> (forall i, In i ids -> exists f, In f fs /\ i <= fr_id f) ->
  frags_from_ids fs ids = map (find_frag fs) ids.
Proof.
  induction fs as [|f t IH]; intros ids Hs Hb Hi Hle.
  - destruct ids as [|i l]; auto. destruct (Hle i (or_introl eq_refl)) as [f [[] _]].
  - cbn [frags_from_ids map] in *. destruct ids as [|i0 l0] eqn:Ei; auto. rewrite <- Ei in *. clear Ei i0 l0.
    destruct Hs as [Hs1 Hs2]. rewrite (N.mod_small (fr_id f)) by (apply Hb; now left).
    destruct (skip_missing_spec ids (fr_id f) Hi) as [a [b [-> [E [Ha Hbb]]]]]. rewrite E, map_app. f_equal.
    + clear - Ha Hs1. induction a as [|i a IHa]; auto. cbn [length repeat map]. f_equal.
      * symmetry. apply find_frag_none. intros g [<-|Hg]; [apply Ha; now left|]. specialize (Hs1 (fr_id g) (in_map _ _ _ Hg)).
        specialize (Ha i (or_introl eq_refl)). lia.
      * apply IHa. intros; apply Ha; now right.
    + apply sinc_app in Hi as [_ [Hi _]]. destruct b as [|i b]; auto. destruct Hi as [Hi1 Hi2].
      assert (Htl : forall j, In j b -> exists g, In g t /\ j <= fr_id g).
      { intros j Hj. specialize (Hi1 j Hj). specialize (Hbb i (or_introl eq_refl)).
        destruct (Hle j) as [g [[<-|Hg] Hg2]]; [apply in_app_iff; right; now right| |eauto]. lia. }
      assert (Hmap : map (find_frag (f :: t)) b = map (find_frag t) b).
      { apply map_ext_in. intros j Hj. unfold find_frag. cbn [find]. specialize (Hi1 j Hj). specialize (Hbb i (or_introl eq_refl)).
        destruct (fr_id f =? j) eqn:Ej; auto. lia. }
      destruct (i =? fr_id f) eqn:Ef.
      * apply N.eqb_eq in Ef. cbn [map]. rewrite Hmap. f_equal.
        -- unfold find_frag. cbn [find]. now rewrite Ef, N.eqb_refl.
        -- apply IH; auto. intros; apply Hb; now right.
      * specialize (Hbb i (or_introl eq_refl)). cbn [map]. rewrite Hmap.
        replace (find_frag (f :: t) i) with (find_frag t i).
        2:{ unfold find_frag. cbn [find]. rewrite N.eqb_sym, Ef. reflexivity. }
        change (find_frag t i :: map (find_frag t) b) with (map (find_frag t) (i :: b)).
        apply IH; auto; [intros; apply Hb; now right|split; auto|].
        intros j [<-|Hj]; auto. destruct (Hle i) as [g [[<-|Hg] Hg2]]; [apply in_app_iff; right; now left| |eauto]. lia.
Qed.

(* ---- one fragment's addresses against its deletion vector ---- *)
Definition keep1 (dels : list N) (a : N) : option N := if memN (row_offset a) dels then None else Some a.
Definition other (fid : N) (rest : list N) : Prop := match rest with [] => True | a :: _ => fragment_id a <> fid end.

Lemma keep_before_spec : forall fid d g rest, (forall a, In a g -> fragment_id a = fid) -> other fid rest ->
  exists g1 g2, g = g1 ++ g2 /\ keep_before fid d (g ++ rest) = (map Some g1, g2 ++ rest) /\
    (forall a, In a g1 -> row_offset a < d) /\ match g2 with [] => True | a :: _ => d <= row_offset a end.
Proof.
  intros fid d. induction g as [|a g IH]; intros rest Hg Hr.
  - exists [], []. split; auto. split; [|split; auto; cbn; tauto]. cbn [app]. destruct rest as [|b r]; auto. cbn [keep_before other] in *.
    destruct (fragment_id b =? fid) eqn:E; auto. apply N.eqb_eq in E. congruence.
  - cbn [app keep_before]. rewrite (Hg a (or_introl eq_refl)), N.eqb_refl. cbn [andb]. destruct (row_offset a <? d) eqn:E.
    + destruct (IH rest) as [g1 [g2 [-> [E2 [E3 E4]]]]]; auto; [intros; apply Hg; now right|]. rewrite E2.
      exists (a :: g1), g2. split; auto. split; auto. split; auto. intros b [<-|Hb]; [lia|auto].
    + exists [], (a :: g). split; auto. split; auto. split; [cbn; tauto|lia].
Qed.

Lemma scan_dv_spec : forall fid dels g rest, (forall a, In a g -> fragment_id a = fid) -> other fid rest -> sinc dels ->
  sinc (map row_offset g) ->
  exists g1 g2, g = g1 ++ g2 /\ scan_dv fid dels (g ++ rest) = (map (keep1 dels) g1, g2 ++ rest) /\
    (forall a, In a g2 -> ~ In (row_offset a) dels).
Proof.
  intros fid. induction dels as [|d ds IH]; intros g rest Hg Hr Hd Hs.
  - exists [], g. split; auto.
  - destruct Hd as [Hd1 Hd2]. cbn [scan_dv]. destruct (keep_before_spec fid d g rest Hg Hr) as [g1 [g2 [-> [E [L1 L2]]]]]. rewrite E.
    rewrite map_app in Hs. apply sinc_app in Hs as [Hs1 [Hs2 Hs3]].
    assert (K1 : map Some g1 = map (keep1 (d :: ds)) g1).
    { apply map_ext_in. intros a Ha. unfold keep1. specialize (L1 a Ha). replace (memN (row_offset a) (d :: ds)) with false; auto.
      symmetry. apply memN_false. intros [Eq|H]; [lia|]. specialize (Hd1 _ H). lia. }
    destruct g2 as [|a g2].
    + cbn [app]. exists g1, []. rewrite app_nil_r, <- K1. split; auto. destruct rest as [|b r]; cbn [other] in *.
      * split; auto.
      * destruct (fragment_id b =? fid) eqn:Eb; [apply N.eqb_eq in Eb; congruence|]. cbn [negb]. split; auto.
    + cbn [app]. rewrite (Hg a) by (apply in_app_iff; right; now left). rewrite N.eqb_refl. cbn [negb].
      cbn [map sinc] in Hs2. destruct Hs2 as [Hs4 Hs2].
      assert (Hgt : forall b, In b g2 -> row_offset a < row_offset b) by (intros; apply Hs4; now apply in_map).
      assert (Hg2 : forall b, In b g2 -> fragment_id b = fid) by (intros; apply Hg; apply in_app_iff; right; now right).
      assert (Kext : forall l, (forall b, In b l -> d < row_offset b) -> map (keep1 ds) l = map (keep1 (d :: ds)) l).
      { intros l Hl. apply map_ext_in. intros b Hb. specialize (Hl b Hb). unfold keep1.
        replace (memN (row_offset b) (d :: ds)) with (memN (row_offset b) ds); auto.
        unfold memN. cbn [existsb]. replace (row_offset b =? d) with false by lia. reflexivity. }
      assert (Next : forall l, (forall b, In b l -> fragment_id b = fid) -> (forall b, In b l -> d < row_offset b) ->
        sinc (map row_offset l) -> exists l1 l2, l = l1 ++ l2 /\ scan_dv fid ds (l ++ rest) = (map (keep1 (d :: ds)) l1, l2 ++ rest) /\
          (forall b, In b l2 -> ~ In (row_offset b) (d :: ds))).
      { intros l Hl1 Hl2 Hl3. destruct (IH l rest Hl1 Hr Hd2 Hl3) as [l1 [l2 [-> [El Nl]]]]. exists l1, l2. split; auto. split.
        - rewrite El, Kext; auto. intros; apply Hl2, in_app_iff; auto.
        - intros b Hb [Eq|H]; [specialize (Hl2 b (proj2 (in_app_iff _ _ _) (or_intror Hb))); lia|]. now apply (Nl b Hb). }
      destruct (row_offset a =? d) eqn:Ea.
      * apply N.eqb_eq in Ea. assert (Ka : keep1 (d :: ds) a = None).
        { unfold keep1. replace (memN (row_offset a) (d :: ds)) with true; auto. symmetry. apply memN_In. left. auto. }
        destruct (Next g2) as [l1 [l2 [-> [El Nl]]]]; auto; [intros b Hb; specialize (Hgt b Hb); lia|].
        exists (g1 ++ a :: l1), l2. split; [now rewrite <- app_assoc|]. rewrite map_app. cbn [map]. rewrite Ka, <- K1.
        split; auto. destruct ((l1 ++ l2) ++ rest) as [|b r] eqn:Ee.
        -- apply app_eq_nil in Ee as [Ee1 Ee2]; apply app_eq_nil in Ee1 as [-> ->]; subst rest; reflexivity.
        -- rewrite El. reflexivity.
      * destruct (Next (a :: g2)) as [l1 [l2 [El0 [El Nl]]]].
        -- intros b [<-|Hb]; auto. apply Hg, in_app_iff. right. now left.
        -- intros b [<-|Hb]; [lia|]. specialize (Hgt b Hb). lia.
        -- cbn [map sinc]. auto.
        -- exists (g1 ++ l1), l2. rewrite El0, <- app_assoc. split; auto. rewrite map_app, <- K1. split; auto.
           rewrite El0 in El. change (a :: g2 ++ rest) with ((a :: g2) ++ rest). rewrite El0. rewrite El. reflexivity.
Qed.

Lemma rest_of_frag_spec : forall fid keep g rest, (forall a, In a g -> fragment_id a = fid) -> other fid rest ->
  rest_of_frag fid keep (g ++ rest) = (map (fun a => if keep then Some a else None) g, rest).
Proof.
  intros fid keep. induction g as [|a g IH]; intros rest Hg Hr; cbn [app rest_of_frag map].
  - destruct rest as [|b r]; auto. cbn [rest_of_frag other] in *. destruct (fragment_id b =? fid) eqn:E; auto. apply N.eqb_eq in E. congruence.
  - rewrite (Hg a (or_introl eq_refl)), N.eqb_refl, IH; auto. intros; apply Hg; now right.
Qed.

(* ---- all fragments ---- *)
(* the row exists as far as the filter can tell: its fragment is in the dataset
   and its offset is not deleted *)
Definition survives {A} (fs : list (frag A)) (a : N) : bool :=
  match find_frag fs (a / two32) with Some f => negb (deleted_in f (a mod two32)) | None => false end.

Lemma take_group : forall l fid, sinc l -> (forall a, In a l -> a < two64) -> (forall a, In a l -> fid <= fragment_id a) ->
  exists g rest, l = g ++ rest /\ (forall a, In a g -> fragment_id a = fid) /\ (forall a, In a rest -> fid < fragment_id a).
Proof.
  induction l as [|a l IH]; intros fid Hs Hb Hge; [exists [], []; repeat split; cbn; tauto|].
  destruct Hs as [Hs1 Hs2]. destruct (N.eq_dec (fragment_id a) fid) as [E|E].
  - destruct (IH fid Hs2) as [g [rest [-> [G1 G2]]]]; [intros; apply Hb; now right|intros; apply Hge; now right|].
    exists (a :: g), rest. split; auto. split; auto. intros b [<-|H]; auto.
  - exists [], (a :: l). split; auto. split; [cbn; tauto|]. intros b [<-|H]; [specialize (Hge a (or_introl eq_refl)); lia|].
    specialize (Hge a (or_introl eq_refl)). assert (fragment_id a <= fragment_id b); [|lia].
    rewrite !fragment_id_small by (apply Hb; simpl; auto). apply N.div_le_mono; [exact two32_pos|]. specialize (Hs1 b H). lia.
Qed.

Lemma dedup_group : forall g fid rest, g <> [] -> (forall a, In a g -> fragment_id a = fid) -> (forall a, In a rest -> fid < fragment_id a) ->
  dedup_adj (map fragment_id (g ++ rest)) = fid :: dedup_adj (map fragment_id rest).
Proof.
  induction g as [|a g IH]; intros fid rest Hne Hg Hr; [congruence|].
  destruct g as [|b g].
  - cbn [app map]. rewrite (Hg a (or_introl eq_refl)). destruct rest as [|c r]; auto. cbn [map dedup_adj].
    replace (fid =? fragment_id c) with false; auto. specialize (Hr c (or_introl eq_refl)). lia.
  - specialize (IH fid rest ltac:(discriminate) ltac:(intros; apply Hg; now right) Hr).
    cbn [app map] in *. change (dedup_adj (fragment_id a :: fragment_id b :: map fragment_id (g ++ rest))) with
      (if fragment_id a =? fragment_id b then dedup_adj (fragment_id b :: map fragment_id (g ++ rest))
       else fragment_id a :: dedup_adj (fragment_id b :: map fragment_id (g ++ rest))).
    rewrite (Hg a), (Hg b) by (simpl; auto). rewrite N.eqb_refl. rewrite (Hg b) in IH by (simpl; auto). exact IH.
Qed.

Lemma dedup_In : forall l x, In x (dedup_adj l) <-> In x l.
Proof.
  induction l as [|a l IH]; intros x; [reflexivity|]. destruct l as [|b l]; [reflexivity|].
  change (dedup_adj (a :: b :: l)) with (if a =? b then dedup_adj (b :: l) else a :: dedup_adj (b :: l)).
  destruct (a =? b) eqn:E.
  - apply N.eqb_eq in E. subst b. rewrite IH. simpl. tauto.
  - cbn [In]. rewrite IH. reflexivity.
Qed.
Lemma dedup_frags_sinc : forall n l, (length l <= n)%nat -> sinc l -> (forall a, In a l -> a < two64) -> sinc (dedup_adj (map fragment_id l)).
Proof.
  induction n; intros l Hl Hs Hb; destruct l as [|a l]; try exact I; [cbn in Hl; lia|].
  destruct (take_group (a :: l) (fragment_id a)) as [g [rest [E [G1 G2]]]]; auto.
  { intros b [<-|H]; [lia|]. rewrite !fragment_id_small by (apply Hb; simpl; auto). apply N.div_le_mono; [exact two32_pos|].
    destruct Hs as [Hs _]. specialize (Hs b H). lia. }
  destruct g as [|x g].
  { cbn [app] in E. subst rest. specialize (G2 a (or_introl eq_refl)). lia. }
  rewrite E, (dedup_group (x :: g) (fragment_id a)) by (auto; discriminate). 
  assert (Hr : sinc rest) by (rewrite E in Hs; now apply sinc_app in Hs).
  cbn [sinc]. split.
  - intros y Hy. apply dedup_In, in_map_iff in Hy as [b [<- Hbb]]. now apply G2.
  - apply IHn; auto.
    + apply (f_equal (@length N)) in E. rewrite app_length in E. cbn [length] in *. lia.
    + intros b Hbb. apply Hb. rewrite E. apply in_app_iff. auto.
Qed.

Lemma filter_frags_spec : forall {A} (fs : list (frag A)), (forall f, In f fs -> frag_wf f) ->
  forall n l, (length l <= n)%nat -> sinc l -> (forall a, In a l -> a < two64) ->
  filter_frags (combine (map (find_frag fs) (dedup_adj (map fragment_id l))) (dedup_adj (map fragment_id l))) l =
  map (fun a => if survives fs a then Some a else None) l.
Proof.
  intros A fs Wf. induction n; intros l Hl Hs Hb; destruct l as [|a l]; try reflexivity; [cbn in Hl; lia|].
  destruct (take_group (a :: l) (fragment_id a)) as [g [rest [E [G1 G2]]]]; auto.
  { intros b [<-|H]; [lia|]. rewrite !fragment_id_small by (apply Hb; simpl; auto). apply N.div_le_mono; [exact two32_pos|].
    destruct Hs as [Hs _]. specialize (Hs b H). lia. }
  destruct g as [|x g].
  { cbn [app] in E. subst rest. specialize (G2 a (or_introl eq_refl)). lia. }
  set (fid := fragment_id a) in *. rewrite E in *. clear E. set (gg := x :: g) in *.
  rewrite (dedup_group gg fid) by (auto; discriminate). cbn [map combine].
  assert (Hr : sinc rest) by now apply sinc_app in Hs. assert (Hg : sinc gg) by now apply sinc_app in Hs.
  assert (Hbr : forall b, In b rest -> b < two64) by (intros; apply Hb, in_app_iff; auto).
  assert (Hbg : forall b, In b gg -> b < two64) by (intros; apply Hb, in_app_iff; auto).
  assert (Hother : other fid rest) by (destruct rest as [|c r]; cbn; auto; specialize (G2 c (or_introl eq_refl)); lia).
  assert (Hlr : (length rest <= n)%nat) by (rewrite app_length in Hl; unfold gg in Hl; cbn [length] in Hl; lia).
  specialize (IHn rest Hlr Hr Hbr).
  assert (Hrec : match rest with [] => [] | _ :: _ => filter_frags (combine (map (find_frag fs) (dedup_adj (map fragment_id rest))) (dedup_adj (map fragment_id rest))) rest end
     = map (fun a => if survives fs a then Some a else None) rest) by (destruct rest; [reflexivity|exact IHn]).
  assert (Hoff : sinc (map row_offset gg)).
  { clear - Hg G1 Hbg. induction gg as [|b t IHt]; cbn [map sinc]; auto. destruct Hg as [Hg1 Hg2]. split.
    - intros y Hy. apply in_map_iff in Hy as [c [<- Hc]]. specialize (Hg1 c Hc).
      pose proof (G1 b (or_introl eq_refl)) as F1. pose proof (G1 c (or_intror Hc)) as F2.
      rewrite fragment_id_small in F1 by (apply Hbg; now left). rewrite fragment_id_small in F2 by (apply Hbg; now right).
      unfold row_offset. pose proof (N.div_mod b two32 two32_pos). pose proof (N.div_mod c two32 two32_pos). rewrite F1 in H. rewrite F2 in H0. lia.
    - apply IHt; auto; [intros; apply G1; now right|intros; apply Hbg; now right]. }
  assert (Hfid : forall b, In b gg -> b / two32 = fid) by (intros b Hbb; rewrite <- fragment_id_small; auto).
  rewrite map_app. destruct (find_frag fs fid) as [f|] eqn:Ef; cbn [filter_frags].
  - assert (Wff : frag_wf f) by (apply Wf; unfold find_frag in Ef; now apply find_some in Ef).
    destruct Wff as [_ [_ Wd]].
    set (dels := match fr_dv f with Some d => dv_sorted_iter d | None => [] end).
    assert (Hdels : sinc dels /\ forall o, memN o dels = deleted_in f o).
    { unfold dels, deleted_in. destruct (fr_dv f) as [d|]; [|split; cbn; auto]. destruct (sorted_iter_spec d (proj1 Wd)) as [D1 [D2 D3]].
      split; auto. intros o. apply eq_true_iff_eq. rewrite !memN_In. apply D2. }
    destruct Hdels as [D1 D2].
    destruct (scan_dv_spec fid dels gg rest G1 Hother D1 Hoff) as [g1 [g2 [E [Es N2]]]].
    rewrite Es. rewrite rest_of_frag_spec; auto.
    2:{ intros b Hbb. apply G1. rewrite E. apply in_app_iff; auto. }
    rewrite Hrec, app_assoc. f_equal. rewrite E, map_app. f_equal.
    + apply map_ext_in. intros b Hbb. unfold keep1, survives. rewrite Hfid by (rewrite E; apply in_app_iff; auto). rewrite Ef, <- D2.
      unfold row_offset. now destruct (memN (b mod two32) dels).
    + apply map_ext_in. intros b Hbb. unfold survives. rewrite Hfid by (rewrite E; apply in_app_iff; auto). rewrite Ef, <- D2.
      replace (memN (b mod two32) dels) with false; auto. symmetry. apply memN_false. now apply N2.
  - rewrite rest_of_frag_spec; auto. rewrite Hrec. f_equal. apply map_ext_in. intros b Hbb. unfold survives. now rewrite Hfid, Ef.
Qed.

Lemma nondec_NoDup_sinc : forall l, nondec l -> NoDup l -> sinc l.
Proof.
  induction l as [|x l IH]; intros Hn Hd; [exact I|]. inversion Hd; subst. split.
  - clear IH. assert (G : forall l x, nondec (x :: l) -> forall y, In y l -> x <= y).
    { induction l0 as [|z t IHt]; intros x0 H0 y Hy; [destruct Hy|]. cbn [nondec] in H0. destruct H0 as [A1 A2]. destruct Hy as [<-|Hy]; auto.
      specialize (IHt z A2 y Hy). lia. }
    intros y Hy. specialize (G l x Hn y Hy). assert (x <> y) by (intros ->; auto). lia.
  - apply IH; auto. destruct l; cbn in *; tauto.
Qed.

Lemma filter_addr_or_ids_spec : forall {A} (fs : list (frag A)) p ids addrs, sinc (map fr_id fs) -> (forall f, In f fs -> frag_wf f) ->
  sorts p addrs -> NoDup addrs -> (forall a, In a addrs -> a < two64 /\ exists f, In f fs /\ a / two32 <= fr_id f) ->
  filter_addr_or_ids fs p ids addrs = Some (map fst (filter (fun x => survives fs (snd x)) (combine ids addrs))).
Proof.
  intros A fs p ids addrs Hs Wf [Hp1 Hp2] Hd Ha. unfold filter_addr_or_ids.
  destruct addrs as [|a0 l0] eqn:Ea; [destruct ids; reflexivity|]. rewrite <- Ea in *. clear Ea a0 l0.
  assert (Hperm : Permutation (apply_slice p addrs) addrs).
  { unfold apply_slice. etransitivity; [apply Permutation_map; exact Hp1|]. clear.
    replace (map (fun i => nth i addrs 0) (seq 0 (length addrs))) with addrs; auto.
    induction addrs as [|a l IH]; auto. cbn [length seq map nth]. f_equal. rewrite <- seq_shift, map_map. exact IH. }
  assert (Hin : forall a, In a (apply_slice p addrs) -> In a addrs) by (intros a H; now apply (Permutation_in _ Hperm)).
  assert (Hsi : sinc (apply_slice p addrs)).
  { apply nondec_NoDup_sinc; auto. eapply Permutation_NoDup; [apply Permutation_sym; exact Hperm|auto]. }
  rewrite frags_from_ids_spec; auto.
  - rewrite (filter_frags_spec fs Wf _ _ (le_n _) Hsi) by (intros a H; now apply Ha, Hin).
    rewrite apply_inv_spec by auto. cbn [omap]. f_equal. clear. revert ids. induction addrs as [|a l IH]; intros [|i ids]; auto.
    cbn [map combine flat_map filter snd]. destruct (survives fs a); cbn [app map fst]; now rewrite <- IH.
  - intros f Hf. now apply Wf.
  - eapply dedup_frags_sinc; [apply le_n|auto|]. intros a H. now apply Ha, Hin.
  - intros i H. apply dedup_In, in_map_iff in H as [a [<- H]]. apply Hin, Ha in H as [H1 [f [H2 H3]]]. exists f. split; auto.
    rewrite fragment_id_small; auto.
Qed.

(* exactly the surviving addresses are kept, in request order *)
Theorem filter_deleted_addresses_spec : forall {A} (fs : list (frag A)) p addrs, sinc (map fr_id fs) -> (forall f, In f fs -> frag_wf f) ->
  sorts p addrs -> NoDup addrs -> (forall a, In a addrs -> a < two64 /\ exists f, In f fs /\ a / two32 <= fr_id f) ->
  filter_deleted_addresses fs p addrs = Some (filter (survives fs) addrs).
Proof.
  intros A fs p addrs Hs Wf Hp Hd Ha. unfold filter_deleted_addresses. rewrite filter_addr_or_ids_spec; auto. f_equal. clear.
  induction addrs as [|a l IH]; auto. cbn [combine filter snd]. destruct (survives fs a); cbn [map fst]; now rewrite <- IH.
Qed.

(* when every id is in the row id index, exactly the ids of surviving rows are kept *)
Theorem filter_deleted_ids_spec : forall {A} (fs : list (frag A)) idx p ids (addr : N -> N), sinc (map fr_id fs) -> (forall f, In f fs -> frag_wf f) ->
  (forall i, In i ids -> index_get idx i = Some (addr i)) ->
  sorts p (map addr ids) -> NoDup (map addr ids) -> (forall i, In i ids -> addr i < two64 /\ exists f, In f fs /\ addr i / two32 <= fr_id f) ->
  filter_deleted_ids fs (Some idx) p ids = Some (filter (fun i => survives fs (addr i)) ids).
Proof.
  intros A fs idx p ids addr Hs Wf Hi Hp Hd Ha. unfold filter_deleted_ids.
  replace (flat_map (fun id => match index_get idx id with Some a => [a] | None => [] end) ids) with (map addr ids).
  2:{ clear - Hi. induction ids as [|i l IH]; auto. cbn [map flat_map]. rewrite (Hi i (or_introl eq_refl)). cbn [app]. f_equal. apply IH. intros; apply Hi; now right. }
  rewrite filter_addr_or_ids_spec; auto.
  - f_equal. clear. induction ids as [|a l IH]; auto. cbn [combine map filter snd]. destruct (survives fs (addr a)); cbn [map fst]; now rewrite <- IH.
  - intros a H. apply in_map_iff in H as [i [<- H]]. now apply Ha.
Qed.

(* for addresses of physical rows, surviving = readable *)
Theorem survives_row : forall {A} (fs : list (frag A)) a, ds_wf fs -> addr_ok fs a -> (survives fs a = true <-> exists v, row_at fs a = Some v).
Proof.
  intros A fs a W [f [Hf [Hid Ho]]]. rewrite (addr_frag fs W a f Hf Hid). unfold survives, find_frag. rewrite <- Hid, find_id by (auto; apply W).
  unfold row_of. destruct (deleted_in f (a mod two32)); cbn [negb].
  - split; [discriminate|]. intros [v H]; discriminate.
  - split; auto. intros _. destruct (nth_error (fr_rows f) (N.to_nat (a mod two32))) eqn:E; eauto. apply nth_error_None in E. lia.
Qed.

Definition del_frag : list (frag nat) := [ {| fr_id := 0; fr_rows := [10; 11; 12]%nat; fr_dv := Some (DSet [1]) |} ].
(* a repeated deleted address survives the filter; an address past the last
   fragment panics *)
Theorem filter_addresses_refuted :
  sinc (map fr_id del_frag) /\ (forall f, In f del_frag -> frag_wf f) /\
  sorts [0; 1]%nat [1; 1] /\ filter_deleted_addresses del_frag [0; 1]%nat [1; 1] = Some [1] /\ row_at del_frag 1 = None /\
  sorts [0; 1]%nat [0; 5 * two32] /\ filter_deleted_addresses del_frag [0; 1]%nat [0; 5 * two32] = None.
Proof.
  split; [cbn; tauto|]. split.
  { intros f [<-|[]]; split; [vm_compute; auto|]; split; [vm_compute; auto|]. split; [repeat constructor; vm_compute; intuition discriminate|].
    intros x [<-|[]]; vm_compute; auto. }
  split; [split; [reflexivity|vm_compute; intuition discriminate]|].
  split; [vm_compute; reflexivity|]. split; [vm_compute; reflexivity|].
  split; [split; [reflexivity|vm_compute; intuition discriminate]|vm_compute; reflexivity].
Qed.

(* a missing id shifts the answers.  Here id 6 is unknown, id 7 is row 1 (deleted), id 8 is row 2
   (live) and the filter answers that 7 is live. *)
Theorem filter_ids_missing_refuted : exists (idx : list piece),
  index_new [(0, [Sorted (EU64 [5; 7; 8])])] = IOk idx /\
  index_get idx 6 = None /\ index_get idx 7 = Some 1 /\ index_get idx 8 = Some 2 /\
  row_at del_frag 1 = None /\ row_at del_frag 2 = Some 12%nat /\
  sorts [0; 1]%nat [1; 2] /\
  filter_deleted_ids del_frag (Some idx) [0; 1]%nat [6; 7; 8] = Some [7].
Proof.
  eexists. split; [vm_compute; reflexivity|]. split; [vm_compute; reflexivity|]. split; [vm_compute; reflexivity|].
  split; [vm_compute; reflexivity|]. split; [vm_compute; reflexivity|]. split; [vm_compute; reflexivity|].
  split; [split; [reflexivity|vm_compute; intuition discriminate]|vm_compute; reflexivity].
Qed.

Example filter_addresses_ex : sorts [2; 0; 1]%nat [1; 7 * two32 + 2; 0] /\
  filter_deleted_addresses [ {| fr_id := 0; fr_rows := [10; 11]%nat; fr_dv := Some (DSet [1]) |}; {| fr_id := 7; fr_rows := [1; 2; 3]%nat; fr_dv := Some (DSet [0]) |} ]
    [2; 0; 1]%nat [1; 7 * two32 + 2; 0] = Some [7 * two32 + 2; 0].
Proof. split; [split; [|vm_compute; intuition discriminate]|vm_compute; reflexivity]. cbn. apply Permutation_sym. apply Permutation_cons_app with (l1 := [2%nat]) (l2 := [1%nat]). apply perm_swap. Qed.
