(* Coverage of fragments by the deltas of an index. *)
From Coq Require Import List Arith Bool Lia Permutation.
From Verif Require Import Lib IdxOptModel.
Import ListNotations.
Local Open Scope nat_scope.

(* ---- specification ---- *)
(* the deltas of a name that say they cover a fragment *)
Definition coverers (l : list ent) (n x : nat) : list ent := filter (fun e => match e_bitmap e with Some b => existsb (Nat.eqb x) b | None => false end) (filter (fun e => e_name e =? n) l).
(* an index file holds the live rows of the fragments its entry names, and perhaps rows that are gone *)
Definition honest (frs : list frag) (e : ent) : Prop :=
  Permutation (filter (fun i => existsb (fun f => existsb (Nat.eqb i) (f_rows f)) frs) (e_rows e)) (flat_map f_rows (filter (fun f => match e_bitmap e with Some b => existsb (Nat.eqb (f_id f)) b | None => false end) frs)).
(* no fragment is covered twice, and only vector indices have more than one delta *)
Definition well (l : list ent) : Prop := forall n, (forall x, length (coverers l n x) <= 1) /\ (forall e, In e l -> e_name e = n -> e_vector e = false -> length (filter (fun e => e_name e =? n) l) = 1).

Lemma has_app : forall a b x, has (a ++ b) x = has a x || has b x.
Proof. intros. unfold has. apply existsb_app. Qed.
Lemma has_in : forall l x, has l x = true <-> In x l.
Proof. intros l x. unfold has. rewrite existsb_exists. split; [intros (y & I & E); apply Nat.eqb_eq in E; now subst|intros I; exists x; split; [exact I|apply Nat.eqb_refl]]. Qed.
Definition cov (e : ent) (x : nat) : bool := match e_bitmap e with Some b => has b x | None => false end.
Lemma bitmaps_has : forall l b x, bitmaps l = Some b -> has b x = existsb (fun e => cov e x) l.
Proof.
  induction l as [|e l IH]; intros b x H; [injection H as <-; reflexivity|]. cbn [bitmaps] in H. destruct (e_bitmap e) as [c|] eqn:E; [|discriminate H]. cbn [obind] in H. destruct (bitmaps l) as [r|]; [|discriminate H]. injection H as <-. rewrite has_app. cbn [existsb]. unfold cov at 1. rewrite E, (IH r x eq_refl). reflexivity.
Qed.
Lemma bitmaps_some : forall l, (forall e, In e l -> e_bitmap e <> None) -> exists b, bitmaps l = Some b.
Proof. induction l as [|e l IH]; intros H; [now exists []|]. destruct IH as (b & E); [intros; apply H; now right|]. pose proof (H e ltac:(now left)). cbn [bitmaps]. destruct (e_bitmap e); [|congruence]. rewrite E. eexists. reflexivity. Qed.
Lemma filter_len0 : forall {X} (p : X -> bool) l, length (filter p l) = 0 <-> existsb p l = false.
Proof. intros X p l. induction l as [|x l IH]; [now split|]. cbn [filter existsb]. destruct (p x); cbn [length orb]; [split; discriminate|exact IH]. Qed.
Lemma in_skipn : forall {X} n (l : list X) x, In x (skipn n l) -> In x l.
Proof. intros X n l x I. rewrite <- (firstn_skipn n l). apply in_or_app. now right. Qed.
Lemma in_firstn : forall {X} n (l : list X) x, In x (firstn n l) -> In x l.
Proof. intros X n l x I. rewrite <- (firstn_skipn n l). apply in_or_app. now left. Qed.

(* ---- one name ---- *)
Lemma one_shape : forall frs all num fresh n a r, (forall e, In e all -> e_name e = n -> e_vector e = false -> length (by_name n all) = 1) -> optimize_one frs all num fresh n = Some (a, r) ->
  exists start new, by_name n all <> [] /\ start <= length (by_name n all) /\ a = firstn start (by_name n all) ++ [new] /\ r = skipn start (by_name n all) /\ e_name new = n /\
    (forall e, In e (by_name n all) -> e_vector e = e_vector new) /\
    (forall x, cov new x = has (map f_id (filter (fun f => negb (existsb (fun e => cov e (f_id f)) (by_name n all))) frs)) x || existsb (fun e => cov e x) (skipn start (by_name n all))) /\
    (e_vector new && e_v3 new = false \/ filter (fun f => negb (existsb (fun e => cov e (f_id f)) (by_name n all))) frs <> [] -> e_rows new = flat_map e_rows (skipn start (by_name n all)) ++ rows_of (filter (fun f => negb (existsb (fun e => cov e (f_id f)) (by_name n all))) frs)) /\
    (forall e t, by_name n all = e :: t -> e_v3 new = e_v3 e) /\ (e_vector new = false -> start = 0).
Proof.
  intros frs all num fresh n a r SC H. unfold optimize_one in H. set (ds := by_name n all) in *. assert (NM : forall e, In e ds -> In e all /\ e_name e = n) by (intros e I; apply filter_In in I as [I J]; now apply Nat.eqb_eq in J). unfold merge_indices in H.
  destruct ds as [|d t] eqn:DS; [discriminate H|]. destruct (NM d ltac:(now left)) as [ID ND].
  destruct (forallb (fun e => Bool.eqb (e_vector e) (e_vector d)) (d :: t)) eqn:FK; cbn [negb] in H; [|discriminate H]. rewrite forallb_forall in FK.
  assert (KD : forall e, In e (d :: t) -> e_vector e = e_vector d) by (intros e I; apply Bool.eqb_prop; now apply FK). clear FK.
  unfold unindexed_fragments in H. rewrite ND in H. fold ds in DS. unfold ds in DS. rewrite DS in H. destruct (bitmaps (d :: t)) as [bb|] eqn:BB; [|discriminate H]. cbn [omap obind] in H.
  assert (UE : filter (fun f => negb (has bb (f_id f))) frs = filter (fun f => negb (existsb (fun e => cov e (f_id f)) (d :: t))) frs) by (apply filter_ext; intros f; now rewrite (bitmaps_has _ _ _ BB)). rewrite UE in H. set (new := filter (fun f => negb (existsb (fun e => cov e (f_id f)) (d :: t))) frs) in *. clearbody new.
  assert (LN : e_name (last (d :: t) d) = n /\ In (last (d :: t) d) (d :: t)). { assert (L : In (last (d :: t) d) (d :: t)) by (rewrite (app_removelast_last d (l := d :: t)) at 2 by discriminate; apply in_or_app; right; now left). split; [now apply NM|exact L]. }
  destruct (e_vector d) eqn:VD.
  - set (start := length (d :: t) - num) in *. assert (SL : start <= length (d :: t)) by lia. destruct (bitmaps (skipn start (d :: t))) as [sb|] eqn:SB; [|discriminate H]. cbn [obind] in H. destruct (merge_vector frs (e_v3 d) (skipn start (d :: t)) new) as [rows|] eqn:MV; [|discriminate H]. cbn [omap obind] in H.
    replace (length (d :: t) - (length (d :: t) - start)) with start in H by lia. clearbody start. rewrite SB in H. cbn [obind] in H. injection H as <- <-. exists start. eexists. split; [discriminate|]. split; [exact SL|]. split; [reflexivity|]. split; [reflexivity|]. cbn [e_name e_vector e_v3 e_rows]. split; [apply LN|]. split; [exact KD|]. split.
    + intros x. unfold cov at 1. cbn [e_bitmap]. rewrite !has_app, !(bitmaps_has _ _ _ SB). destruct (has (map f_id new) x), (existsb (fun e => cov e x) (skipn start (d :: t))); reflexivity.
    + split; [|split; [intros e t' E; now inversion E|discriminate]]. cbn [andb]. intros C. unfold merge_vector in MV. destruct (e_v3 d) eqn:V3.
      * destruct C as [C|C]; [discriminate C|]. destruct (forallb _ _); [|discriminate MV]. destruct new as [|f0 nt]; [congruence|]. destruct (flat_map e_rows (skipn start (d :: t)) ++ rows_of (f0 :: nt)); [discriminate MV|]. now injection MV as <-.
      * now injection MV as <-.
  - pose proof (SC d ID ND VD) as L1. cbn [length] in L1. destruct t as [|? ?]; [|cbn in L1; lia]. cbn [obind omap length Nat.sub skipn] in H. rewrite BB in H. cbn [obind] in H. cbn [last firstn app] in H. injection H as <- <-. exists 0. eexists. split; [discriminate|]. split; [lia|]. split; [reflexivity|]. split; [reflexivity|]. cbn [e_name e_vector e_v3 e_rows]. split; [exact ND|]. split; [exact KD|]. split.
    + intros x. unfold cov at 1. cbn [e_bitmap skipn]. rewrite !has_app, !(bitmaps_has _ _ _ BB). destruct (has (map f_id new) x), (existsb (fun e => cov e x) [d]); reflexivity.
    + split; [|split; [intros e t' E; now inversion E|reflexivity]]. intros _. cbn [flat_map skipn]. now rewrite app_nil_r.
Qed.
Lemma coverers_eq : forall l n x, coverers l n x = filter (fun e => cov e x) (by_name n l).
Proof. reflexivity. Qed.
(* counting *)
Lemma one_count : forall frs all num fresh n a r x, well all -> optimize_one frs all num fresh n = Some (a, r) -> (forall e, In e a -> e_name e = n) /\ length (filter (fun e => cov e x) a) <= 1 /\ (In x (map f_id frs) -> length (filter (fun e => cov e x) a) = 1).
Proof.
  intros frs all num fresh n a r x W H. destruct (W n) as [W1 W2]. specialize (W1 x). rewrite coverers_eq in W1. destruct (one_shape _ _ _ _ _ _ _ W2 H) as (start & new & NE & SL & -> & -> & NN & _ & CV & _ & _ & _). specialize (CV x). split.
  { intros e I. apply in_app_or in I as [I|[<-|[]]]; [|exact NN]. apply in_firstn, filter_In in I as [_ I]. now apply Nat.eqb_eq in I. }
  set (ds := by_name n all) in *. rewrite <- (firstn_skipn start ds) in W1. rewrite filter_app, app_length in W1 |- *. cbn [filter]. rewrite CV.
  set (c1 := filter (fun e => cov e x) (firstn start ds)) in *. destruct (existsb (fun e => cov e x) (skipn start ds)) eqn:E2.
  - rewrite orb_true_r. cbn [length]. assert (length (filter (fun e => cov e x) (skipn start ds)) <> 0) by (intros Z; apply filter_len0 in Z; congruence). lia.
  - rewrite orb_false_r. apply filter_len0 in E2. destruct (has (map f_id (filter (fun f => negb (existsb (fun e => cov e (f_id f)) ds)) frs)) x) eqn:U; cbn [length].
    + assert (Z : length c1 = 0). { apply has_in, in_map_iff in U as (f & <- & U). apply filter_In in U as [_ U]. apply negb_true_iff in U. rewrite <- (firstn_skipn start ds), existsb_app in U. apply orb_false_iff in U as [U _]. unfold c1. now apply filter_len0. } lia.
    + split; [lia|]. intros I. assert (length c1 <> 0); [|lia]. intros Z. apply filter_len0 in Z. apply in_map_iff in I as (f & <- & I). assert (Q : has (map f_id (filter (fun f => negb (existsb (fun e => cov e (f_id f)) ds)) frs)) (f_id f) = true); [|congruence].
      apply has_in, in_map, filter_In. split; [exact I|]. apply negb_true_iff. rewrite <- (firstn_skipn start ds), existsb_app, Z. now apply filter_len0.
Qed.
(* rows *)
Lemma filter_or : forall {X} (p q : X -> bool) l, (forall x, In x l -> p x && q x = false) -> Permutation (filter p l ++ filter q l) (filter (fun x => p x || q x) l).
Proof.
  intros X p q l. induction l as [|x l IH]; intros H; [constructor|]. specialize (IH ltac:(intros; apply H; now right)). pose proof (H x ltac:(now left)). cbn [filter]. destruct (p x), (q x); try discriminate; cbn [orb app]; [now constructor| |exact IH]. rewrite <- IH. symmetry. apply Permutation_middle.
Qed.
Lemma filter_any : forall {X Y} (p : Y -> X -> bool) ps l, (forall x, In x l -> length (filter (fun y => p y x) ps) <= 1) -> Permutation (flat_map (fun y => filter (p y) l) ps) (filter (fun x => existsb (fun y => p y x) ps) l).
Proof.
  intros X Y p ps l. induction ps as [|y ps IH]; intros H; [cbn [flat_map existsb]; clear; induction l as [|x l IH]; [constructor|exact IH]|]. cbn [flat_map existsb]. rewrite IH.
  - apply filter_or. intros x I. specialize (H x I). cbn [filter] in H. destruct (p y x); [|reflexivity]. cbn [length andb] in *. apply filter_len0. lia.
  - intros x I. specialize (H x I). cbn [filter] in H. destruct (p y x); cbn [length] in H; lia.
Qed.
Lemma rows_perm : forall a b, Permutation a b -> Permutation (rows_of a) (rows_of b).
Proof. intros a b P. unfold rows_of. now apply Permutation_flat_map. Qed.
Lemma rows_app : forall a b, rows_of (a ++ b) = rows_of a ++ rows_of b.
Proof. intros. apply flat_map_app. Qed.
Definition live (frs : list frag) (i : nat) : bool := existsb (fun f => existsb (Nat.eqb i) (f_rows f)) frs.
Lemma live_all : forall frs sub, (forall f, In f sub -> In f frs) -> filter (live frs) (rows_of sub) = rows_of sub.
Proof.
  intros frs sub S. assert (H : forall i, In i (rows_of sub) -> live frs i = true). { intros i I. apply in_flat_map in I as (f & I & J). apply existsb_exists. exists f. split; [now apply S|]. now apply has_in. }
  revert H. generalize (rows_of sub). induction l as [|i l IH]; intros H; [reflexivity|]. cbn [filter]. rewrite (H i) by (now left). f_equal. apply IH. intros; apply H; now right.
Qed.
Lemma one_honest : forall frs all num fresh n a r, well all -> (forall e, In e all -> e_name e = n -> honest frs e) ->
  (forall e, In e all -> e_name e = n -> e_vector e = true -> e_v3 e = true -> exists f, In f frs /\ coverers all n (f_id f) = []) -> optimize_one frs all num fresh n = Some (a, r) -> forall e, In e a -> honest frs e.
Proof.
  intros frs all num fresh n a r W HO U H e I. destruct (W n) as [W1 W2]. destruct (one_shape _ _ _ _ _ _ _ W2 H) as (start & new & NE & SL & -> & -> & NN & KD & CV & RW & V3 & _).
  assert (DI : forall e, In e (by_name n all) -> In e all /\ e_name e = n) by (intros x J; apply filter_In in J as [J K]; now apply Nat.eqb_eq in K).
  apply in_app_or in I as [I|[<-|[]]]; [apply in_firstn in I; destruct (DI e I); now apply HO|].
  assert (RW' : e_rows new = flat_map e_rows (skipn start (by_name n all)) ++ rows_of (filter (fun f => negb (existsb (fun e => cov e (f_id f)) (by_name n all))) frs)).
  { apply RW. destruct (by_name n all) as [|d t] eqn:DS; [congruence|]. specialize (V3 d t eq_refl). specialize (KD d ltac:(now left)). destruct (DI d ltac:(now left)) as [D1 D2]. destruct (e_vector new) eqn:VN; [|now left]. destruct (e_v3 new) eqn:V3N; [|now left]. right.
    destruct (U d D1 D2 KD (eq_sym V3)) as (f & F1 & F2). intros Z. assert (Q : In f []); [|destruct Q]. rewrite <- Z. apply filter_In. split; [exact F1|]. apply negb_true_iff. rewrite coverers_eq, DS in F2. apply filter_len0. now rewrite F2. }
  clear RW. unfold honest. fold (live frs). rewrite RW'. clear RW'. set (ds := by_name n all) in *. rewrite filter_app, live_all by (intros f I; apply filter_In in I; apply I).
  assert (E1 : Permutation (filter (live frs) (flat_map e_rows (skipn start ds))) (rows_of (flat_map (fun e => filter (fun f => cov e (f_id f)) frs) (skipn start ds)))).
  { assert (HS : forall e, In e (skipn start ds) -> honest frs e) by (intros e I; apply in_skipn in I; destruct (DI e I); now apply HO). revert HS. generalize (skipn start ds). induction l as [|e l IH]; intros HS; [constructor|]. cbn [flat_map]. rewrite filter_app, rows_app. apply Permutation_app; [exact (HS e ltac:(now left))|]. apply IH. intros; apply HS; now right. }
  rewrite E1, <- rows_app. apply rows_perm. clear E1. rewrite (filter_any (fun e f => cov e (f_id f))).
  - rewrite filter_or.
    + erewrite (filter_ext_in _ (fun f => match e_bitmap new with Some b => existsb (Nat.eqb (f_id f)) b | None => false end)); [reflexivity|]. intros f I. change (match e_bitmap new with Some b => existsb (Nat.eqb (f_id f)) b | None => false end) with (cov new (f_id f)). rewrite CV. rewrite orb_comm. f_equal.
      destruct (has (map f_id (filter (fun f0 => negb (existsb (fun e => cov e (f_id f0)) ds)) frs)) (f_id f)) eqn:Q.
      * apply has_in, in_map_iff in Q as (g & G & Q). apply filter_In in Q as [_ Q]. now rewrite <- G.
      * destruct (existsb (fun e => cov e (f_id f)) ds) eqn:Z; [reflexivity|]. exfalso. assert (has (map f_id (filter (fun f0 => negb (existsb (fun e => cov e (f_id f0)) ds)) frs)) (f_id f) = true); [|congruence]. apply has_in, in_map, filter_In. split; [exact I|]. now rewrite Z.
    + intros f I. destruct (existsb (fun e => cov e (f_id f)) (skipn start ds)) eqn:Z; [|reflexivity]. cbn [andb]. apply negb_false_iff. rewrite <- (firstn_skipn start ds), existsb_app, Z. apply orb_true_r.
  - intros f I. specialize (W1 (f_id f)). rewrite coverers_eq in W1. fold ds in W1. rewrite <- (firstn_skipn start ds), filter_app, app_length in W1. lia.
Qed.

(* ---- all names ---- *)
Lemma by_name_app : forall n a b, by_name n (a ++ b) = by_name n a ++ by_name n b.
Proof. intros. apply filter_app. Qed.
Lemma by_name_all : forall n a, (forall e, In e a -> e_name e = n) -> by_name n a = a.
Proof. intros n. induction a as [|e a IH]; intros H; [reflexivity|]. unfold by_name in *. cbn [filter]. rewrite (H e) by (now left). rewrite Nat.eqb_refl. f_equal. apply IH. intros; apply H; now right. Qed.
Lemma by_name_none : forall n a, (forall e, In e a -> e_name e <> n) -> by_name n a = [].
Proof. intros n. induction a as [|e a IH]; intros H; [reflexivity|]. unfold by_name in *. cbn [filter]. rewrite (proj2 (Nat.eqb_neq _ _) (H e ltac:(now left))). apply IH. intros; apply H; now right. Qed.
Lemma by_name_in : forall n a e, In e (by_name n a) <-> In e a /\ e_name e = n.
Proof. intros. unfold by_name. rewrite filter_In, Nat.eqb_eq. reflexivity. Qed.
Lemma one_removed : forall frs all num fresh n a r, optimize_one frs all num fresh n = Some (a, r) -> (forall e, In e r -> In e all /\ e_name e = n) /\ a <> [].
Proof.
  intros frs all num fresh n a r H. unfold optimize_one in H. destruct (merge_indices frs all (by_name n all) num) as [[[rows merged] b]|]; [|discriminate H]. cbn [obind] in H. destruct (bitmaps (skipn (length (by_name n all) - merged) (by_name n all))); [|discriminate H]. cbn [obind] in H. destruct (by_name n all) as [|d t] eqn:D; [discriminate H|]. injection H as <- <-. rewrite <- D. split; [|intros Z; apply app_eq_nil in Z as [_ Z]; discriminate Z]. intros e I. apply in_skipn in I. now apply by_name_in.
Qed.
Lemma names_ok : forall frs all num fresh names a r, well all -> NoDup names -> optimize_names frs all num fresh names = Some (a, r) ->
  (forall n, In n names -> exists rn, optimize_one frs all num fresh n = Some (by_name n a, rn)) /\ (forall e, In e a -> In (e_name e) names) /\ (forall e, In e r -> In e all /\ In (e_name e) names).
Proof.
  intros frs all num fresh names a r W. revert a r. induction names as [|n names IH]; intros a r ND H; cbn [optimize_names] in H.
  { injection H as <- <-. split; [intros n []|split; intros e []]. }
  destruct (optimize_one frs all num fresh n) as [[an rn]|] eqn:O; [|discriminate H]. cbn [obind] in H. destruct (optimize_names frs all num fresh names) as [[a' r']|] eqn:N; [|discriminate H]. cbn [omap] in H. injection H as <- <-.
  apply NoDup_cons_iff in ND as [NI ND]. destruct (IH a' r' ND eq_refl) as (I1 & I2 & I3). destruct (one_count _ _ _ _ _ _ _ 0 W O) as [NM _]. destruct (one_removed _ _ _ _ _ _ _ O) as [RM _]. split; [|split].
  - intros k [<-|K].
    + exists rn. rewrite by_name_app, (by_name_all n an NM), (by_name_none n a'), app_nil_r; [exact O|]. intros e I E. apply NI. rewrite <- E. now apply I2.
    + destruct (I1 k K) as (rk & E). exists rk. rewrite by_name_app, (by_name_none k an); [exact E|]. intros e I Q. apply NI. rewrite <- (NM e I), Q. exact K.
  - intros e I. apply in_app_or in I as [I|I]; [left; symmetry; now apply NM|right; now apply I2].
  - intros e I. apply in_app_or in I as [I|I]; [destruct (RM e I) as [? ->]; split; [assumption|now left]|destruct (I3 e I); split; [assumption|now right]].
Qed.
Lemma commit_new : forall cur a r n, by_name n a <> [] -> by_name n (commit_indices cur (a, r)) = by_name n a.
Proof.
  intros cur a r n NE. unfold commit_indices. cbn [fst snd]. rewrite by_name_app, (by_name_none n (filter _ cur)); [reflexivity|]. intros e I E. apply filter_In in I as [_ I]. apply andb_prop in I as [I _]. apply negb_true_iff in I. assert (existsb (fun x => e_name x =? e_name e) a = true); [|congruence]. destruct (by_name n a) as [|x t] eqn:B; [congruence|]. assert (J : In x (by_name n a)) by (rewrite B; now left). apply by_name_in in J as [J1 J2]. apply existsb_exists. exists x. split; [exact J1|]. apply Nat.eqb_eq. congruence.
Qed.
Lemma filter_filter : forall {X} (p q : X -> bool) l, filter p (filter q l) = filter (fun x => q x && p x) l.
Proof. intros X p q l. induction l as [|x l IH]; [reflexivity|]. cbn [filter]. destruct (q x); cbn [filter andb]; [destruct (p x); now rewrite IH|exact IH]. Qed.
Lemma commit_old : forall cur a r n, by_name n a = [] -> by_name n (commit_indices cur (a, r)) = filter (fun e => negb (existsb (fun x => e_uuid x =? e_uuid e) r)) (by_name n cur).
Proof.
  intros cur a r n NE. unfold commit_indices. cbn [fst snd]. rewrite by_name_app, NE, app_nil_r. unfold by_name at 1 2. rewrite !filter_filter. apply filter_ext. intros e. destruct (e_name e =? n) eqn:E; [|now rewrite andb_false_r]. apply Nat.eqb_eq in E. rewrite andb_true_r. cbn [andb].
  replace (existsb (fun x => e_name x =? e_name e) a) with false; [reflexivity|]. symmetry. destruct (existsb (fun x => e_name x =? e_name e) a) eqn:X; [|reflexivity]. apply existsb_exists in X as (x & I & X). apply Nat.eqb_eq in X. exfalso. assert (In x (by_name n a)) by (apply by_name_in; split; [exact I|congruence]). rewrite NE in H. destruct H.
Qed.
(* entries of one file have one name *)
Definition same_file (a b : list ent) : Prop := forall x y, In x a -> In y b -> e_uuid x = e_uuid y -> e_name x = e_name y.
Lemma filter_id : forall {X} (p : X -> bool) l, (forall x, In x l -> p x = true) -> filter p l = l.
Proof. intros X p. induction l as [|x l IH]; intros H; [reflexivity|]. cbn [filter]. rewrite (H x) by (now left). f_equal. apply IH. intros; apply H; now right. Qed.
Lemma optimize_named : forall frs read num fresh names latest res, well read -> NoDup names -> optimize_indices frs read num fresh names latest = Some res ->
  (forall n, In n names -> exists r, optimize_one frs read num fresh n = Some (by_name n res, r)) /\
  (forall n, ~ In n names -> exists r, (forall e, In e r -> In e read /\ In (e_name e) names) /\ by_name n res = filter (fun e => negb (existsb (fun x => e_uuid x =? e_uuid e) r)) (by_name n latest)).
Proof.
  intros frs read num fresh names latest res W ND H. unfold optimize_indices in H. destruct (optimize_names frs read num fresh names) as [[a r]|] eqn:N; [|discriminate H]. cbn [omap fst] in H. destruct (names_ok _ _ _ _ _ _ _ W ND N) as (I1 & I2 & I3).
  assert (C : res = commit_indices latest (a, r)).
  { destruct a as [|x a]; [|now injection H as <-]. injection H as <-. destruct names as [|n names].
    - cbn in N. injection N as <-. unfold commit_indices. cbn [fst snd existsb negb andb]. rewrite app_nil_r. symmetry. now apply filter_id.
    - destruct (I1 n ltac:(now left)) as (rn & E). apply one_removed in E as [_ E]. cbn in E. congruence. }
  subst res. split; intros n I.
  - destruct (I1 n I) as (rn & E). exists rn. rewrite commit_new; [exact E|]. now apply one_removed in E.
  - exists r. split; [exact I3|]. apply commit_old. apply by_name_none. intros e J E. apply I. rewrite <- E. now apply I2.
Qed.

(* After optimizing, every fragment is covered by exactly one delta of each index that was optimized, whatever was committed in
   between. *)
Theorem optimize_cover : forall frs read num fresh names latest res, well read -> NoDup names -> optimize_indices frs read num fresh names latest = Some res ->
  forall n f, In n names -> In f frs -> length (coverers res n (f_id f)) = 1.
Proof.
  intros frs read num fresh names latest res W ND H n f I F. destruct (proj1 (optimize_named _ _ _ _ _ _ _ W ND H) n I) as (r & E). rewrite coverers_eq. apply (one_count _ _ _ _ _ _ _ (f_id f) W E). now apply in_map.
Qed.
(* The other indices are left as they are. *)
Theorem optimize_others : forall frs read num fresh names latest res, well read -> NoDup names -> (forall x y, In x read -> In y latest -> e_uuid x = e_uuid y -> e_name x = e_name y) -> optimize_indices frs read num fresh names latest = Some res ->
  forall n, ~ In n names -> filter (fun e => e_name e =? n) res = filter (fun e => e_name e =? n) latest.
Proof.
  intros frs read num fresh names latest res W ND SF H n I. destruct (proj2 (optimize_named _ _ _ _ _ _ _ W ND H) n I) as (r & R & E). change (by_name n res = by_name n latest). rewrite E. apply filter_id. intros e J. apply by_name_in in J as [J1 J2]. apply negb_true_iff. destruct (existsb (fun x => e_uuid x =? e_uuid e) r) eqn:X; [|reflexivity]. apply existsb_exists in X as (x & X1 & X2). apply Nat.eqb_eq in X2. destruct (R x X1) as [R1 R2]. exfalso. apply I. rewrite <- J2, <- (SF x e R1 J1 X2). exact R2.
Qed.
(* Each delta holds exactly the rows it says it covers. *)
Theorem optimize_honest_partial : forall frs read num fresh names latest res, well read -> NoDup names -> (forall e, In e read -> honest frs e) ->
  (forall n e, In n names -> In e read -> e_name e = n -> e_vector e = true -> e_v3 e = true -> exists f, In f frs /\ coverers read n (f_id f) = []) ->
  optimize_indices frs read num fresh names latest = Some res -> forall e, In e res -> In (e_name e) names -> honest frs e.
Proof.
  intros frs read num fresh names latest res W ND HO U H e I J. destruct (proj1 (optimize_named _ _ _ _ _ _ _ W ND H) (e_name e) J) as (r & E). apply (one_honest frs read num fresh (e_name e) _ r W) with (e := e) in E; [exact E| | |].
  - intros x X _. now apply HO.
  - intros x X N. now apply (U (e_name e) x J X N).
  - apply by_name_in. now split.
Qed.

(* ---- create and drop ---- *)
Theorem create_exact : forall frs read name field vector v3 replace uuid latest,
  (create_index frs read name field vector v3 replace uuid latest <> None <-> (forall e, In e read -> e_name e <> name) \/ (replace = true /\ exists e l, filter (fun e => e_name e =? name) read = e :: l /\ e_field e = field)) /\
  forall res, create_index frs read name field vector v3 replace uuid latest = Some res ->
    (exists e, filter (fun e => e_name e =? name) res = [e] /\ e_field e = field /\ honest frs e /\ forall f, In f frs -> coverers res name (f_id f) = [e]) /\
    forall n, n <> name -> filter (fun e => e_name e =? n) res = filter (fun e => e_name e =? n) latest.
Proof.
  intros frs read name field vector v3 replace uuid latest. unfold create_index. change (filter (fun e => e_name e =? name) read) with (by_name name read).
  set (new := {| e_uuid := uuid; e_name := name; e_field := field; e_vector := vector; e_v3 := v3; e_bitmap := Some (map f_id frs); e_rows := rows_of frs |}).
  assert (HN : honest frs new). { unfold honest. fold (live frs). cbn [e_rows e_bitmap new]. unfold new. cbn [e_rows e_bitmap]. rewrite live_all by auto. rewrite (filter_id _ frs); [reflexivity|]. intros f I. apply has_in. now apply in_map. }
  assert (K : forall res, Some (commit_indices latest ([new], [])) = Some res -> (exists e, filter (fun e => e_name e =? name) res = [e] /\ e_field e = field /\ honest frs e /\ forall f, In f frs -> coverers res name (f_id f) = [e]) /\ forall n, n <> name -> filter (fun e => e_name e =? n) res = filter (fun e => e_name e =? n) latest).
  { intros res H. injection H as <-. assert (BN : by_name name [new] = [new]) by (apply by_name_all; intros e [<-|[]]; reflexivity). split.
    - exists new. change (filter (fun e => e_name e =? name) (commit_indices latest ([new], []))) with (by_name name (commit_indices latest ([new], []))). rewrite commit_new by (rewrite BN; discriminate). split; [exact BN|]. split; [reflexivity|]. split; [exact HN|]. intros f I. rewrite coverers_eq, commit_new by (rewrite BN; discriminate). rewrite BN. cbn [filter]. replace (cov new (f_id f)) with true; [reflexivity|]. symmetry. apply has_in. now apply in_map.
    - intros n N. change (by_name n (commit_indices latest ([new], [])) = by_name n latest). rewrite commit_old; [apply filter_id; reflexivity|]. apply by_name_none. intros e [<-|[]]. cbn. congruence. }
  destruct (by_name name read) as [|e l] eqn:B.
  - split; [|exact K]. split; [|discriminate]. intros _. left. intros e I E. assert (In e (by_name name read)) by (now apply by_name_in). rewrite B in H. destruct H.
  - assert (IE : In e read /\ e_name e = name) by (apply by_name_in; rewrite B; now left). destruct (e_field e =? field) eqn:F; cbn [negb].
    + apply Nat.eqb_eq in F. destruct replace; cbn [negb]; (split; [|exact K || discriminate]).
      * split; [|discriminate]. intros _. right. split; [reflexivity|]. now exists e, l.
      * split; [congruence|]. intros [H|[H _]]; [|discriminate H]. exfalso. apply (H e); apply IE.
    + split; [|discriminate]. split; [congruence|]. intros [H|(_ & e' & l' & H & G)]; [exfalso; apply (H e); apply IE|]. inversion H; subst. rewrite Nat.eqb_refl in F. discriminate F.
Qed.
Theorem drop_exact : forall read name, (drop_index read name read <> None <-> exists e, In e read /\ e_name e = name) /\
  ((forall x y, In x read -> In y read -> e_uuid x = e_uuid y -> e_name x = e_name y) -> forall res, drop_index read name read = Some res -> res = filter (fun e => negb (e_name e =? name)) read).
Proof.
  intros read name. unfold drop_index. destruct (by_name name read) as [|d t] eqn:B.
  - split; [|discriminate]. split; [congruence|]. intros (e & I & E). assert (In e (by_name name read)) by (now apply by_name_in). rewrite B in H. destruct H.
  - split.
    + split; [|discriminate]. intros _. exists d. apply by_name_in. rewrite B. now left.
    + intros SF res H. injection H as <-. unfold commit_indices. cbn [fst snd existsb]. rewrite app_nil_r. apply filter_ext_in. intros e I. cbn [negb andb]. f_equal. change ((e_uuid d =? e_uuid e) || existsb (fun x => e_uuid x =? e_uuid e) t) with (existsb (fun x => e_uuid x =? e_uuid e) (d :: t)). rewrite <- B. destruct (e_name e =? name) eqn:E.
      * apply existsb_exists. exists e. split; [|apply Nat.eqb_refl]. apply by_name_in. split; [exact I|now apply Nat.eqb_eq].
      * destruct (existsb (fun x => e_uuid x =? e_uuid e) (by_name name read)) eqn:X; [|reflexivity]. apply existsb_exists in X as (x & X1 & X2). apply by_name_in in X1 as [X1 X3]. apply Nat.eqb_eq in X2. apply Nat.eqb_neq in E. exfalso. apply E. now rewrite <- (SF x e X1 I X2).
Qed.

(* ---- histories ---- *)
Definition well1 (ds : list ent) : Prop := (forall x, length (filter (fun e => cov e x) ds) <= 1) /\ (forall e, In e ds -> e_vector e = false -> length ds = 1).
Lemma well_iff : forall l, well l <-> forall n, well1 (by_name n l).
Proof.
  intros l. split; intros H n; destruct (H n) as [H1 H2].
  - split; [exact H1|]. intros e I V. apply by_name_in in I as [I E]. now apply (H2 e).
  - split; [exact H1|]. intros e I E V. apply (H2 e); [now apply by_name_in|exact V].
Qed.
Lemma well1_filter : forall p ds, well1 ds -> well1 (filter p ds).
Proof.
  intros p ds [H1 H2]. split.
  - intros x. specialize (H1 x). assert (L : forall l, length (filter (fun e => cov e x) (filter p l)) <= length (filter (fun e => cov e x) l)). { induction l as [|e l IH]; [apply le_n|]. cbn [filter]. destruct (p e); cbn [filter]; destruct (cov e x); cbn [length]; lia. } specialize (L ds). lia.
  - intros e I V. pose proof I as J. apply filter_In in J as [J _]. specialize (H2 e J V). destruct ds as [|d [|? ?]]; try discriminate H2. cbn [filter] in *. destruct (p d); [reflexivity|destruct I].
Qed.
Lemma well1_one : forall frs all num fresh n a r, well all -> optimize_one frs all num fresh n = Some (a, r) -> well1 a.
Proof.
  intros frs all num fresh n a r W H. split; [intros x; now apply (one_count _ _ _ _ _ _ _ x W H)|]. intros e I V. destruct (W n) as [W1 W2]. destruct (one_shape _ _ _ _ _ _ _ W2 H) as (start & new & NE & SL & -> & -> & NN & KD & _ & _ & _ & ST).
  assert (VN : e_vector new = false). { apply in_app_or in I as [I|[<-|[]]]; [|exact V]. apply in_firstn in I. now rewrite <- (KD e I). } rewrite (ST VN). reflexivity.
Qed.
Theorem optimize_well : forall frs read num fresh names latest res, well read -> well latest -> NoDup names -> optimize_indices frs read num fresh names latest = Some res -> well res.
Proof.
  intros frs read num fresh names latest res W WL ND H. apply well_iff. intros n. destruct (optimize_named _ _ _ _ _ _ _ W ND H) as [H1 H2]. destruct (in_dec Nat.eq_dec n names) as [I|I].
  - destruct (H1 n I) as (r & E). now apply well1_one in E.
  - destruct (H2 n I) as (r & _ & ->). apply well1_filter. now apply well_iff.
Qed.
Lemma create_well : forall frs read name field vector v3 replace uuid latest res, well latest -> create_index frs read name field vector v3 replace uuid latest = Some res -> well res.
Proof.
  intros frs read name field vector v3 replace uuid latest res WL H. apply well_iff. intros n. destruct (create_exact frs read name field vector v3 replace uuid latest) as [_ K]. destruct (K res H) as [(e & E & _) O]. destruct (Nat.eq_dec n name) as [->|N].
  - unfold by_name. rewrite E. split; [intros x; cbn [filter]; destruct (cov e x); cbn; lia|reflexivity].
  - unfold by_name. rewrite (O n N). now apply well_iff.
Qed.
Lemma drop_well : forall read name latest res, well latest -> drop_index read name latest = Some res -> well res.
Proof.
  intros read name latest res WL H. apply well_iff. intros n. unfold drop_index in H. destruct (by_name name read) as [|d t]; [discriminate H|]. injection H as <-. rewrite commit_old by reflexivity. apply well1_filter. now apply well_iff.
Qed.
(* Any operations of any writers, each reading some earlier version; the last version is first. Fragments may be any at each time. *)
Inductive history : list (list ent) -> Prop :=
| h_start : history [[]]
| h_create : forall frs read name field vector v3 replace uuid latest older res, history (latest :: older) -> In read (latest :: older) -> create_index frs read name field vector v3 replace uuid latest = Some res -> history (res :: latest :: older)
| h_drop : forall read name latest older res, history (latest :: older) -> In read (latest :: older) -> drop_index read name latest = Some res -> history (res :: latest :: older)
| h_optimize : forall frs read num fresh names latest older res, history (latest :: older) -> In read (latest :: older) -> NoDup names -> optimize_indices frs read num fresh names latest = Some res -> history (res :: latest :: older).
Theorem history_well : forall h, history h -> forall l n x, In l h -> length (coverers l n x) <= 1 /\ (forall e, In e l -> e_name e = n -> e_vector e = false -> length (filter (fun e => e_name e =? n) l) = 1).
Proof.
  intros h H. assert (A : forall l, In l h -> well l); [|intros l n x I; split; [apply (A l I n)|apply (A l I n)]]. induction H; intros l I.
  - destruct I as [<-|[]]. intros n. split; [intros x; cbn; lia|intros e []].
  - destruct I as [<-|I]; [|now apply IHhistory]. apply create_well in H1; [exact H1|]. apply IHhistory. now left.
  - destruct I as [<-|I]; [|now apply IHhistory]. apply drop_well in H1; [exact H1|]. apply IHhistory. now left.
  - destruct I as [<-|I]; [|now apply IHhistory]. apply optimize_well in H2; [exact H2| | |exact H1]; apply IHhistory; [exact H0|now left].
Qed.

(* ---- success ---- *)
Lemma one_total : forall frs all num fresh n, by_name n all <> [] -> (forall e, In e (by_name n all) -> e_bitmap e <> None) -> (forall e e', In e (by_name n all) -> In e' (by_name n all) -> e_vector e = e_vector e') ->
  (forall e, In e (by_name n all) -> e_vector e = true -> e_v3 e = true -> (forall i e', In e' (by_name n all) -> In i (e_rows e') -> In i (rows_of frs)) /\ exists f, In f frs /\ f_rows f <> [] /\ coverers all n (f_id f) = []) ->
  optimize_one frs all num fresh n <> None.
Proof.
  intros frs all num fresh n NE BM KD V3 C. unfold optimize_one in C. pose proof (coverers_eq all n) as CE. assert (NM : forall e, In e (by_name n all) -> e_name e = n) by (intros e I; now apply by_name_in in I). unfold merge_indices, unindexed_fragments in C. destruct (by_name n all) as [|d t] eqn:DS; [congruence|].
  replace (forallb (fun e => Bool.eqb (e_vector e) (e_vector d)) (d :: t)) with true in C by (symmetry; apply forallb_forall; intros e I; rewrite (KD e d I ltac:(now left)); apply Bool.eqb_reflx). cbn [negb] in C. rewrite (NM d) in C by (now left). rewrite DS in C.
  destruct (bitmaps_some (d :: t) BM) as (bb & BB). rewrite BB in C. cbn [omap obind] in C.
  assert (SK : forall k, exists b, bitmaps (skipn k (d :: t)) = Some b). { intros k. apply bitmaps_some. intros e I. apply BM. now apply in_skipn in I. }
  destruct (e_vector d) eqn:VD.
  - destruct (SK (length (d :: t) - num)) as (sb & SB). rewrite SB in C. cbn [obind] in C. destruct (merge_vector frs (e_v3 d) (skipn (length (d :: t) - num) (d :: t)) (filter (fun f => negb (has bb (f_id f))) frs)) as [rows|] eqn:MV.
    + cbn [omap obind] in C. destruct (SK (length (d :: t) - (length (d :: t) - (length (d :: t) - num)))) as (rb & RB). rewrite RB in C. discriminate C.
    + unfold merge_vector in MV. destruct (e_v3 d) eqn:V; [|discriminate MV]. destruct (V3 d ltac:(now left) VD V) as (LV & f & F1 & F2 & F3).
      replace (forallb (fun i => has (rows_of frs) i) (flat_map e_rows (skipn (length (d :: t) - num) (d :: t)))) with true in MV.
      2:{ symmetry. apply forallb_forall. intros i I. apply in_flat_map in I as (e & I & J). apply has_in. apply (LV i e); [now apply in_skipn in I|exact J]. }
      assert (IN : In f (filter (fun f => negb (has bb (f_id f))) frs)). { apply filter_In. split; [exact F1|]. rewrite (bitmaps_has _ _ _ BB). apply negb_true_iff, filter_len0. rewrite CE in F3. now rewrite F3. }
      destruct (filter (fun f => negb (has bb (f_id f))) frs) as [|g l] eqn:G; [destruct IN|]. rewrite <- G in *. destruct (flat_map e_rows (skipn (length (d :: t) - num) (d :: t)) ++ rows_of (filter (fun f => negb (has bb (f_id f))) frs)) eqn:Z; [|discriminate MV]. apply app_eq_nil in Z as [_ Z].
      destruct (f_rows f) as [|i r] eqn:R; [congruence|]. assert (Q : In i (rows_of (filter (fun f => negb (has bb (f_id f))) frs))) by (apply in_flat_map; exists f; split; [exact IN|rewrite R; now left]). rewrite Z in Q. destruct Q.
  - cbn [obind] in C. destruct (SK (length (d :: t) - 1)) as (rb & RB). rewrite RB in C. discriminate C.
Qed.
Theorem optimize_total : forall frs read num fresh names latest, (forall n, In n names -> exists e, In e read /\ e_name e = n) -> (forall e, In e read -> e_bitmap e <> None) -> (forall e e', In e read -> In e' read -> e_name e = e_name e' -> e_vector e = e_vector e') ->
  (forall e, In e read -> In (e_name e) names -> e_vector e = true -> e_v3 e = true -> (forall i e', In e' read -> e_name e' = e_name e -> In i (e_rows e') -> exists f, In f frs /\ In i (f_rows f)) /\ exists f, In f frs /\ f_rows f <> [] /\ coverers read (e_name e) (f_id f) = []) ->
  optimize_indices frs read num fresh names latest <> None.
Proof.
  intros frs read num fresh names latest NE BM KD V3. unfold optimize_indices. assert (H : optimize_names frs read num fresh names <> None); [|destruct (optimize_names frs read num fresh names); [discriminate|congruence]].
  assert (O : forall n, In n names -> optimize_one frs read num fresh n <> None).
  { intros n I. apply one_total.
    - destruct (NE n I) as (e & J & E). intros Z. assert (In e (by_name n read)) by (now apply by_name_in). rewrite Z in H. destruct H.
    - intros e J. apply by_name_in in J as [J _]. now apply BM.
    - intros e e' J K. apply by_name_in in J as [J1 J2], K as [K1 K2]. apply KD; [exact J1|exact K1|congruence].
    - intros e J V W. apply by_name_in in J as [J1 J2]. subst n. destruct (V3 e J1 I V W) as [L F]. split; [|exact F]. intros i e' K M. apply by_name_in in K as [K1 K2]. destruct (L i e' K1 K2 M) as (f & F1 & F2). apply in_flat_map. now exists f. }
  clear NE V3. induction names as [|n names IH]; [discriminate|]. cbn [optimize_names]. specialize (IH ltac:(intros; apply O; now right)). pose proof (O n ltac:(now left)). destruct (optimize_one frs read num fresh n) as [[a r]|]; [|congruence]. cbn [obind]. destruct (optimize_names frs read num fresh names) as [[a' r']|]; [discriminate|congruence].
Qed.

(* ---- statistics ---- *)
Lemma distinct_ok : forall l, NoDup l -> distinct l = true.
Proof. induction l as [|x l IH]; intros N; [reflexivity|]. apply NoDup_cons_iff in N as [I N]. cbn [distinct]. rewrite (IH N), andb_true_r. apply negb_true_iff. destruct (has l x) eqn:E; [|reflexivity]. apply has_in in E. congruence. Qed.
Lemma filter_split : forall {X} (p : X -> bool) l, Permutation (filter p l ++ filter (fun x => negb (p x)) l) l.
Proof. intros X p l. induction l as [|x l IH]; [constructor|]. cbn [filter]. destruct (p x); cbn [negb app]; [now constructor|]. rewrite <- Permutation_middle. now constructor. Qed.
Theorem statistics_exact : forall frs all n, NoDup (map f_id frs) -> (exists e, In e all /\ e_name e = n) -> (forall e, In e all -> e_name e = n -> e_bitmap e <> None) -> (forall x, length (coverers all n x) <= 1) ->
  let inside := filter (fun f => match coverers all n (f_id f) with [] => false | _ => true end) frs in
  let outside := filter (fun f => match coverers all n (f_id f) with [] => true | _ => false end) frs in
  index_statistics frs all n = Some {| i_frags := length inside; i_other_frags := length outside; i_rows := length (flat_map f_rows inside); i_other_rows := length (flat_map f_rows outside) |}.
Proof.
  intros frs all n ND (e & I & E) BM C1 inside outside. unfold index_statistics. assert (J : In e (by_name n all)) by (now apply by_name_in). destruct (by_name n all) as [|d t] eqn:B; [destruct J|]. destruct (bitmaps_some (d :: t)) as (b & BB). { intros x K. rewrite <- B in K. apply by_name_in in K as [K1 K2]. now apply BM. } rewrite BB. cbn [obind].
  assert (P : Permutation (concat (map (fun e => filter (covers e) frs) (d :: t))) inside).
  { rewrite <- flat_map_concat_map. rewrite (filter_any (fun e f => cov e (f_id f)) (d :: t) frs). 2:{ intros f _. specialize (C1 (f_id f)). rewrite coverers_eq, B in C1. exact C1. }
    unfold inside. erewrite filter_ext; [reflexivity|]. intros f. cbv beta. rewrite coverers_eq, B. generalize (d :: t). clear. induction l as [|x l IH]; [reflexivity|]. cbn [existsb filter]. destruct (cov x (f_id f)); [reflexivity|exact IH]. }
  assert (Q : Permutation (inside ++ outside) frs). { transitivity (inside ++ filter (fun f => negb (match coverers all n (f_id f) with [] => false | _ => true end)) frs); [|apply filter_split]. apply Permutation_app; [reflexivity|]. unfold outside. erewrite filter_ext; [reflexivity|]. intros f. cbv beta. now destruct (coverers all n (f_id f)). }
  set (c := concat (map (fun e => filter (covers e) frs) (d :: t))) in *. clearbody c. rewrite distinct_ok. 2:{ rewrite (Permutation_map f_id P). unfold inside. clear - ND. induction frs as [|f l IH]; [constructor|]. cbn [map] in ND. apply NoDup_cons_iff in ND as [I ND]. cbn [filter]. destruct (match coverers all n (f_id f) with [] => false | _ => true end); [|now apply IH]. cbn [map]. constructor; [|now apply IH]. intros K. apply I. apply in_map_iff in K as (g & G & K). apply filter_In in K as [K _]. rewrite <- G. now apply in_map. }
  cbn [negb]. pose proof (Permutation_length P) as L1. pose proof (Permutation_length (rows_perm _ _ P)) as L2. pose proof (Permutation_length Q) as L3. pose proof (Permutation_length (rows_perm _ _ Q)) as L4. rewrite rows_app, app_length in L4. rewrite app_length in L3. unfold minus. rewrite L1, L2.
  replace (length inside <=? length frs) with true by (symmetry; apply Nat.leb_le; lia). cbn [obind]. replace (length (rows_of inside) <=? length (rows_of frs)) with true by (symmetry; apply Nat.leb_le; lia). cbn [omap]. fold (rows_of inside) (rows_of outside). do 2 f_equal; lia.
Qed.
