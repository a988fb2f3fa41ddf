(* Proofs about compaction plans (C49). *)
From Coq Require Import List Arith NArith Lia Bool.
From Verif Require Import Lib AMap SerdeModel CompactModel.
Import ListNotations.

(* ---- the claim ---- *)
(* tasks are disjoint, non-empty runs of adjacent fragments, in order *)
Fixpoint runs {F} (tasks : list (list F)) (l : list F) : Prop :=
  match tasks with
  | [] => True
  | t :: r => t <> [] /\ exists gap rest, l = gap ++ t ++ rest /\ runs r rest
  end.
Definition small (o : options) (f : pfrag) : Prop := p_rows f < o_target o.
Definition by_itself (o : options) (f : pfrag) : Prop := o_materialize o (p_rows f) (p_del f) = true.
Definition live_rows (t : list pfrag) : nat := fold_right (fun f n => (p_rows f - p_del f) + n) 0 t.

Lemma runs_front : forall {F} (ts : list (list F)) g l, runs ts l -> runs ts (g ++ l).
Proof.
  intros F [|t r] g l H; [exact I|]. cbn in *. destruct H as [N [gap [rest [E R]]]]. split; [exact N|]. exists (g ++ gap), rest. split; [|exact R].
  rewrite E, app_assoc. reflexivity.
Qed.
Lemma runs_filter : forall {F B} (g : B -> list F) (p : B -> bool) bins l, runs (map g bins) l -> runs (map g (filter p bins)) l.
Proof.
  intros F B g p bins. induction bins as [|b bins IH]; intros l H; [exact I|]. cbn in H. destruct H as [N [gap [rest [E R]]]]. apply IH in R. cbn. destruct (p b).
  - cbn. split; [exact N|]. exists gap, rest. auto.
  - rewrite E. apply runs_front, runs_front. exact R.
Qed.
Lemma runs_split : forall {F} (pieces r : list (list F)) rest, Forall (fun p => p <> []) pieces -> runs r rest -> runs (pieces ++ r) (concat pieces ++ rest).
Proof.
  intros F pieces r rest P R. induction P as [|p ps N P IH]; [exact R|]. cbn. split; [exact N|]. exists [], (concat ps ++ rest). rewrite <- app_assoc. auto.
Qed.

(* ---- bins ---- *)
Definition frags_of (b : bin) : list pfrag := map fst (b_items b).
Definition good (o : options) (ixs : list pindex) (b : bin) : Prop :=
  b_items b <> [] /\ Forall (fun it => candidate o (fst it) = Some (snd it) /\ indices_containing ixs (p_id (fst it)) = b_indices b) (b_items b).
Definition cur_frags (cur : option bin) : list pfrag := match cur with Some b => frags_of b | None => [] end.
Definition cur_good o ixs (cur : option bin) : Prop := match cur with Some b => good o ixs b | None => True end.
Lemma eqb_list_true : forall a b, eqb_list a b = true <-> a = b.
Proof. intros. unfold eqb_list. destruct (list_eq_dec Nat.eq_dec a b); split; congruence. Qed.
Lemma good_start : forall o ixs f c, candidate o f = Some c -> good o ixs {| b_items := [(f, c)]; b_indices := indices_containing ixs (p_id f) |}.
Proof. intros. split; [discriminate|]. cbn. constructor; [cbn; auto|constructor]. Qed.
Lemma good_add : forall o ixs b f c, good o ixs b -> candidate o f = Some c -> b_indices b = indices_containing ixs (p_id f) ->
  good o ixs {| b_items := b_items b ++ [(f, c)]; b_indices := b_indices b |}.
Proof.
  intros o ixs b f c [N G] C E. split; cbn; [destruct (b_items b); discriminate|]. apply Forall_app. split; [exact G|]. constructor; [cbn; auto|constructor].
Qed.
Lemma frags_of_nil : forall o ixs b, good o ixs b -> frags_of b <> [].
Proof. intros o ixs b [N _]. unfold frags_of. destruct (b_items b); [congruence|discriminate]. Qed.
Lemma bins_good : forall o ixs l cur, cur_good o ixs cur -> Forall (good o ixs) (bins_loop o ixs cur l).
Proof.
  intros o ixs l. induction l as [|f t IH]; intros cur G; cbn [bins_loop].
  - destruct cur; [constructor; [exact G|constructor]|constructor].
  - destruct (candidate o f) as [c|] eqn:C, cur as [b|].
    + destruct (eqb_list (b_indices b) (indices_containing ixs (p_id f))) eqn:E.
      * apply IH. apply good_add; auto. apply eqb_list_true. exact E.
      * constructor; [exact G|]. apply IH. apply good_start. exact C.
    + apply IH. apply good_start. exact C.
    + constructor; [exact G|]. apply IH. exact I.
    + apply IH. exact I.
Qed.
Lemma bins_runs : forall o ixs l cur, cur_good o ixs cur -> runs (map frags_of (bins_loop o ixs cur l)) (cur_frags cur ++ l).
Proof.
  intros o ixs l. induction l as [|f t IH]; intros cur G; cbn [bins_loop].
  - destruct cur as [b|]; [|exact I]. cbn. split; [apply (frags_of_nil o ixs); exact G|]. exists [], []. auto.
  - destruct (candidate o f) as [c|] eqn:C, cur as [b|]; cbn [cur_frags app].
    + destruct (eqb_list (b_indices b) (indices_containing ixs (p_id f))) eqn:E.
      * apply eqb_list_true in E. specialize (IH (Some {| b_items := b_items b ++ [(f, c)]; b_indices := b_indices b |}) (good_add o ixs b f c G C E)).
        replace (frags_of b ++ f :: t) with (cur_frags (Some {| b_items := b_items b ++ [(f, c)]; b_indices := b_indices b |}) ++ t); [exact IH|].
        unfold cur_frags, frags_of. cbn. rewrite map_app, <- app_assoc. reflexivity.
      * cbn. split; [apply (frags_of_nil o ixs); exact G|]. exists [], (f :: t). split; [reflexivity|].
        specialize (IH (Some {| b_items := [(f, c)]; b_indices := indices_containing ixs (p_id f) |}) (good_start o ixs f c C)). exact IH.
    + exact (IH (Some {| b_items := [(f, c)]; b_indices := indices_containing ixs (p_id f) |}) (good_start o ixs f c C)).
    + cbn. split; [apply (frags_of_nil o ixs); exact G|]. exists [], (f :: t). split; [reflexivity|]. apply (runs_front _ [f] t). exact (IH None Logic.I).
    + apply (runs_front _ [f] t). exact (IH None Logic.I).
Qed.
Lemma cur_kept : forall o ixs l b, exists b' rest, In b' (bins_loop o ixs (Some b) l) /\ b_items b' = b_items b ++ rest.
Proof.
  intros o ixs l. induction l as [|f t IH]; intros b; cbn [bins_loop].
  - exists b, []. rewrite app_nil_r. split; [left|]; reflexivity.
  - destruct (candidate o f) as [c|].
    + destruct (eqb_list (b_indices b) _).
      * destruct (IH {| b_items := b_items b ++ [(f, c)]; b_indices := b_indices b |}) as [b' [rest [J E]]]. exists b', ((f, c) :: rest). split; [exact J|].
        rewrite E. cbn. rewrite <- app_assoc. reflexivity.
      * exists b, []. rewrite app_nil_r. split; [left|]; reflexivity.
    + exists b, []. rewrite app_nil_r. split; [left|]; reflexivity.
Qed.
Lemma bins_complete : forall o ixs l cur x c, In x l -> candidate o x = Some c -> exists b, In b (bins_loop o ixs cur l) /\ In (x, c) (b_items b).
Proof.
  intros o ixs l. induction l as [|f t IH]; intros cur x c J C; [destruct J|]. destruct J as [->|J].
  - cbn [bins_loop]. rewrite C. destruct cur as [b|].
    + destruct (eqb_list (b_indices b) _).
      * destruct (cur_kept o ixs t {| b_items := b_items b ++ [(x, c)]; b_indices := b_indices b |}) as [b' [rest [K E]]]. exists b'. split; [exact K|].
        rewrite E. cbn. rewrite !in_app_iff. cbn. auto.
      * destruct (cur_kept o ixs t {| b_items := [(x, c)]; b_indices := indices_containing ixs (p_id x) |}) as [b' [rest [K E]]]. exists b'. split; [right; exact K|].
        rewrite E. left. reflexivity.
    + destruct (cur_kept o ixs t {| b_items := [(x, c)]; b_indices := indices_containing ixs (p_id x) |}) as [b' [rest [K E]]]. exists b'. split; [exact K|].
      rewrite E. left. reflexivity.
  - cbn [bins_loop]. destruct (candidate o f) as [c'|], cur as [b|]; try (destruct (eqb_list (b_indices b) _));
    match goal with |- context [bins_loop o ixs ?cur' t] => destruct (IH cur' x c J C) as [b' [K E]]; exists b'; split; [try (right; exact K); exact K|exact E] end.
Qed.
Lemma bins_adjacent : forall o ixs l1 cur x y l2 cx cy, candidate o x = Some cx -> candidate o y = Some cy ->
  indices_containing ixs (p_id x) = indices_containing ixs (p_id y) ->
  exists b pre post, In b (bins_loop o ixs cur (l1 ++ x :: y :: l2)) /\ b_items b = pre ++ (x, cx) :: (y, cy) :: post.
Proof.
  intros o ixs l1. induction l1 as [|f t IH]; intros cur x y l2 cx cy Cx Cy E.
  - assert (Y : forall b, b_indices b = indices_containing ixs (p_id x) -> forall pre, b_items b = pre ++ [(x, cx)] ->
      exists b' pre post, In b' (bins_loop o ixs (Some b) (y :: l2)) /\ b_items b' = pre ++ (x, cx) :: (y, cy) :: post).
    { intros b Hb pre Hp. cbn [bins_loop]. rewrite Cy. rewrite Hb, E. replace (eqb_list _ _) with true by (symmetry; apply eqb_list_true; reflexivity).
      match goal with |- context [bins_loop o ixs (Some ?b0) l2] => destruct (cur_kept o ixs l2 b0) as [b' [rest [K EK]]] end. exists b', pre, rest. split; [exact K|].
      rewrite EK. cbn. rewrite Hp. rewrite <- !app_assoc. reflexivity. }
    change ([] ++ x :: y :: l2) with (x :: y :: l2). cbn [bins_loop]. fold (bins_loop o ixs). rewrite Cx. destruct cur as [b|].
    + destruct (eqb_list (b_indices b) (indices_containing ixs (p_id x))) eqn:EB.
      * apply eqb_list_true in EB. apply (Y {| b_items := b_items b ++ [(x, cx)]; b_indices := b_indices b |} EB (b_items b)). reflexivity.
      * destruct (Y {| b_items := [(x, cx)]; b_indices := indices_containing ixs (p_id x) |} eq_refl [] eq_refl) as [b' [pre [post [K EK]]]].
        exists b', pre, post. split; [right; exact K|exact EK].
    + apply (Y {| b_items := [(x, cx)]; b_indices := indices_containing ixs (p_id x) |} eq_refl []). reflexivity.
  - cbn [app bins_loop]. destruct (candidate o f) as [c'|], cur as [b|]; try (destruct (eqb_list (b_indices b) _));
    match goal with |- context [bins_loop o ixs ?cur' (t ++ _)] => destruct (IH cur' x y l2 cx cy Cx Cy E) as [b' [pre [post [K EK]]]]; exists b', pre, post; split; [try (right; exact K); exact K|exact EK] end.
Qed.

(* ---- splitting ---- *)
Lemma rows_app : forall a b, rows_of (a ++ b) = rows_of a + rows_of b.
Proof. unfold rows_of. induction a as [|x a IH]; intros b; cbn; [reflexivity|]. rewrite IH. lia. Qed.
Lemma bin_len_le : forall min items acc, bin_len min acc items <= length items.
Proof. intros min items. induction items as [|[f c] t IH]; intros acc; cbn [bin_len length]; [lia|]. destruct (acc <? min); [specialize (IH (acc + num_rows f)); lia|lia]. Qed.
Lemma bin_len_reach : forall min items acc, bin_len min acc items < length items -> min <= acc + rows_of (firstn (bin_len min acc items) items).
Proof.
  intros min items. induction items as [|[f c] t IH]; intros acc L; cbn [bin_len length] in L; [lia|]. cbn [bin_len] in *. destruct (Nat.ltb_spec acc min).
  - cbn [firstn]. unfold rows_of. cbn [fold_right fst]. fold (rows_of (firstn (bin_len min (acc + num_rows f) t) t)). specialize (IH (acc + num_rows f) ltac:(lia)). lia.
  - cbn. lia.
Qed.
Lemma bin_len_min : forall min items acc k, k < bin_len min acc items -> acc + rows_of (firstn k items) < min.
Proof.
  intros min items. induction items as [|[f c] t IH]; intros acc k L; cbn [bin_len] in L; [lia|]. destruct (Nat.ltb_spec acc min); [|lia]. destruct k as [|k].
  - cbn. lia.
  - cbn [firstn]. unfold rows_of. cbn [fold_right fst]. fold (rows_of (firstn k t)). specialize (IH (acc + num_rows f) k ltac:(lia)). lia.
Qed.
Lemma split_spec : forall min fuel items, 0 < min -> length items < fuel -> items <> [] ->
  exists pieces, split_for_size fuel min items = Some pieces /\ concat pieces = items /\ Forall (fun p => p <> []) pieces /\
    (pieces = [items] \/ Forall (fun p => min <= rows_of p) pieces) /\
    Forall (fun p => forall a b, p = a ++ b -> min <= rows_of a -> rows_of b < min) pieces.
Proof.
  intros min fuel. induction fuel as [|k IH]; intros items Hm L N; [lia|]. cbn [split_for_size]. set (n := bin_len min 0 items).
  assert (LE : n <= length items) by apply bin_len_le.
  assert (NS : forall p, firstn n items = p \/ p = items -> rows_of (skipn n p) < min -> forall a b, p = a ++ b -> min <= rows_of a -> rows_of b < min).
  { intros p HP HR a b E HA. destruct (le_lt_dec n (length a)) as [GE|LT].
    - assert (X : skipn n p = skipn n a ++ b) by (rewrite E, skipn_app; replace (n - length a) with 0 by lia; reflexivity). rewrite X, rows_app in HR. lia.
    - exfalso. assert (X : a = firstn (length a) items).
      { destruct HP as [HP|HP]; [subst p|subst p; rewrite E, firstn_app, Nat.sub_diag, firstn_all, app_nil_r; reflexivity].
        apply (f_equal (firstn (length a))) in E. rewrite firstn_firstn, Nat.min_l in E by lia. rewrite E, firstn_app, Nat.sub_diag, firstn_all, app_nil_r. reflexivity. }
      pose proof (bin_len_min min items 0 (length a) LT) as Y. rewrite <- X in Y. lia. }
  destruct (Nat.leb_spec min (rows_of (skipn n items))) as [G|G].
  - assert (LT : n < length items). { destruct (le_lt_dec (length items) n); [|assumption]. rewrite skipn_all2 in G by assumption. cbn in G. lia. }
    assert (POS : 0 < n). { destruct items as [|[f c] t]; [congruence|]. subst n. cbn [bin_len]. destruct (Nat.ltb_spec 0 min); lia. }
    destruct (IH (skipn n items) Hm) as [ps [E [C [NE [S D]]]]]; [rewrite skipn_length; lia|intros X; apply (f_equal (@length _)) in X; rewrite skipn_length in X; cbn in X; lia|].
    rewrite E. exists (firstn n items :: ps). split; [reflexivity|]. split; [cbn; rewrite C; apply firstn_skipn|]. split; [|split].
    + constructor; [|exact NE]. intros X. apply (f_equal (@length _)) in X. rewrite firstn_length in X. cbn in X. lia.
    + right. constructor; [pose proof (bin_len_reach min items 0 LT); fold n in H; lia|]. destruct S as [->|S]; [constructor; [exact G|constructor]|exact S].
    + constructor; [|exact D]. apply NS; [left; reflexivity|]. rewrite skipn_all2 by (rewrite firstn_length; lia). cbn. lia.
  - exists [items]. split; [reflexivity|]. split; [cbn; apply app_nil_r|]. split; [constructor; [exact N|constructor]|]. split; [left; reflexivity|].
    constructor; [|constructor]. apply NS; [right; reflexivity|exact G].
Qed.

Lemma indices_iff : forall ixs pos a b, indices_from pos ixs a = indices_from pos ixs b -> forall ix, In ix ixs -> fragmap ix a = fragmap ix b.
Proof.
  assert (G : forall ixs pos a p, In p (indices_from pos ixs a) -> pos <= p).
  { induction ixs as [|ix t IH]; intros pos a p I; [destruct I|]. cbn in I. destruct (fragmap ix a); [destruct I as [<-|I]; [lia|]|]; apply IH in I; lia. }
  induction ixs as [|ix t IH]; intros pos a b E i I; [destruct I|]. cbn in E.
  assert (X : fragmap ix a = fragmap ix b /\ indices_from (S pos) t a = indices_from (S pos) t b).
  { destruct (fragmap ix a), (fragmap ix b).
    - injection E as E. auto.
    - exfalso. assert (In pos (indices_from (S pos) t b)) by (rewrite <- E; left; reflexivity). apply G in H. lia.
    - exfalso. assert (In pos (indices_from (S pos) t a)) by (rewrite E; left; reflexivity). apply G in H. lia.
    - auto. }
  destruct X as [X Y]. destruct I as [<-|I]; [exact X|eapply IH; eauto].
Qed.
Lemma indices_ext : forall ixs pos a b, (forall ix, In ix ixs -> fragmap ix a = fragmap ix b) -> indices_from pos ixs a = indices_from pos ixs b.
Proof. induction ixs as [|ix t IH]; intros pos a b H; [reflexivity|]. cbn. rewrite (H ix (or_introl eq_refl)), (IH (S pos) a b); [reflexivity|]. intros; apply H; right; assumption. Qed.
Lemma candidate_spec : forall o f c, candidate o f = Some c -> match c with Itself => by_itself o f | WithNeighbors => small o f end.
Proof.
  intros o f c H. unfold candidate in H. destruct (o_materialize o (p_rows f) (p_del f)) eqn:M; [injection H as <-; exact M|].
  destruct (Nat.ltb_spec (p_rows f) (o_target o)); [injection H as <-; assumption|discriminate].
Qed.
Lemma live_rows_of : forall p, live_rows (map fst p) = rows_of p.
Proof. unfold live_rows, rows_of. induction p as [|x p IH]; cbn; [reflexivity|]. rewrite IH. reflexivity. Qed.
Lemma not_noop_2 : forall b x cx y cy pre post, b_items b = pre ++ (x, cx) :: (y, cy) :: post -> is_noop b = false.
Proof.
  intros b x cx y cy pre post E. unfold is_noop. rewrite E. destruct pre as [|[p cp] [|[q cq] pre]]; cbn.
  - destruct cx; reflexivity.
  - destruct cp; reflexivity.
  - destruct cp; reflexivity.
Qed.
Lemma not_noop_itself : forall b x, In (x, Itself) (b_items b) -> is_noop b = false.
Proof. intros b x I. unfold is_noop. destruct (b_items b) as [|[p cp] [|q l]]; [destruct I| |destruct cp; reflexivity]. destruct I as [I|[]]. injection I as _ ->. reflexivity. Qed.
Lemma sequence_all : forall {A B} (f : A -> option B) l, (forall x, In x l -> exists y, f x = Some y) -> exists ys, sequence_opt (map f l) = Some ys /\ Forall2 (fun x y => f x = Some y) l ys.
Proof.
  intros A B f l. induction l as [|x l IH]; intros H; [exists []; auto|]. destruct (H x) as [y E]; [left; reflexivity|]. destruct IH as [ys [E2 F]]; [intros z I; apply H; right; exact I|].
  exists (y :: ys). cbn. rewrite E, E2. auto.
Qed.
Lemma plan_spec : forall fuel o ixs frags, 0 < o_target o -> length frags < fuel -> (forall f, In f frags -> p_del f <= p_rows f) ->
  exists tasks, plan_compaction fuel o ixs frags = Some tasks /\
    runs tasks frags /\
    (forall t, In t tasks ->
       (forall f, In f t -> small o f \/ by_itself o f) /\
       (forall f g ix l, In f t -> In g t -> In ix ixs -> pi_bitmap ix = Some l -> (In (p_id f) l <-> In (p_id g) l)) /\
       (2 <= length t \/ exists f, t = [f] /\ by_itself o f) /\
       (forall a b, t = a ++ b -> o_target o <= live_rows a -> live_rows b < o_target o)) /\
    (forall f, In f frags -> by_itself o f -> exists t, In t tasks /\ In f t) /\
    (forall l1 f g l2, frags = l1 ++ f :: g :: l2 -> (small o f \/ by_itself o f) -> (small o g \/ by_itself o g) ->
       (forall ix, In ix ixs -> exists l, pi_bitmap ix = Some l /\ (In (p_id f) l <-> In (p_id g) l)) ->
       exists t u, In t tasks /\ In u tasks /\ In f t /\ In g u).
Proof.
  intros fuel o ixs frags Hm Hf HD. unfold plan_compaction.
  set (bins := filter (fun b => negb (is_noop b)) (bins_loop o ixs None frags)).
  pose proof (bins_good o ixs frags None Logic.I) as GB. rewrite Forall_forall in GB.
  pose proof (bins_runs o ixs frags None Logic.I) as RB. cbn [cur_frags app] in RB. apply (runs_filter frags_of (fun b => negb (is_noop b))) in RB. fold bins in RB.
  assert (GB' : forall b, In b bins -> good o ixs b /\ is_noop b = false).
  { intros b I. apply filter_In in I as [I N]. split; [apply GB; exact I|]. apply negb_true_iff. exact N. }
  assert (SUB : forall b, In b bins -> length (b_items b) < fuel /\ forall it, In it (b_items b) -> In (fst it) frags).
  { assert (X : forall bs l, runs (map frags_of bs) l -> forall b, In b bs -> length (frags_of b) <= length l /\ forall f, In f (frags_of b) -> In f l).
    { clear. induction bs as [|c bs IH]; intros l R b I; [destruct I|]. cbn in R. destruct R as [_ [gap [rest [E R]]]]. destruct I as [->|I].
      - rewrite E. rewrite !app_length. split; [lia|]. intros f J. rewrite !in_app_iff. auto.
      - destruct (IH rest R b I) as [L J]. rewrite E, !app_length. split; [lia|]. intros f K. rewrite !in_app_iff. auto. }
    intros b I. destruct (X bins frags RB b I) as [L J]. unfold frags_of in *. rewrite map_length in L. split; [lia|]. intros it K. apply J. apply in_map. exact K. }
  destruct (sequence_all (fun b => split_for_size fuel (o_target o) (b_items b)) bins) as [ys [ES F2]].
  { intros b I. destruct (GB' b I) as [[N _] _]. destruct (SUB b I) as [L _]. destruct (split_spec (o_target o) fuel (b_items b) Hm L N) as [ps [E _]]. eauto. }
  rewrite ES. exists (map (map fst) (concat ys)). split; [reflexivity|].
  assert (IN : forall t, In t (map (map fst) (concat ys)) <-> exists b p ps, In b bins /\ split_for_size fuel (o_target o) (b_items b) = Some ps /\ In p ps /\ t = map fst p).
  { intros t. rewrite in_map_iff. split.
    - intros [p [<- I]]. apply in_concat in I as [ps [I J]]. clear - F2 I J. induction F2 as [|b q bs qs E F2 IH]; [destruct I|]. destruct I as [<-|I].
      + exists b, p, q. split; [left; reflexivity|]. auto.
      + destruct (IH I) as [b' [p' [ps' [K R]]]]. exists b', p', ps'. split; [right; exact K|exact R].
    - intros [b [p [ps [I [E [J ->]]]]]]. exists p. split; [reflexivity|]. apply in_concat. exists ps. split; [|exact J].
      clear - F2 I E. induction F2 as [|b' q bs qs E' F2 IH]; [destruct I|]. destruct I as [<-|I]; [left; congruence|right; auto]. }
  assert (CONT : forall b x, In b bins -> In x (b_items b) -> exists t, In t (map (map fst) (concat ys)) /\ In (fst x) t).
  { intros b x I J. destruct (GB' b I) as [[N _] _]. destruct (SUB b I) as [L _]. destruct (split_spec (o_target o) fuel (b_items b) Hm L N) as [ps [E [C _]]].
    rewrite <- C in J. apply in_concat in J as [p [K J]]. exists (map fst p). split; [apply IN; exists b, p, ps; auto|apply in_map; exact J]. }
  assert (COMP : forall f, small o f \/ by_itself o f -> exists c, candidate o f = Some c).
  { intros f H. unfold candidate, small, by_itself in *. destruct (o_materialize o (p_rows f) (p_del f)); [eauto|]. destruct (Nat.ltb_spec (p_rows f) (o_target o)); [eauto|]. destruct H; [lia|discriminate]. }
  split; [|split; [|split]].
  - (* runs *)
    assert (X : forall bs qs l, Forall2 (fun b ps => split_for_size fuel (o_target o) (b_items b) = Some ps) bs qs -> (forall b, In b bs -> In b bins) -> runs (map frags_of bs) l -> runs (map (map fst) (concat qs)) l).
    { intros bs qs l F. revert l. induction F as [|b q bs qs E F IH]; intros l SB R; [exact Logic.I|]. cbn in R. destruct R as [_ [gap [rest [El R]]]]. cbn [concat]. rewrite map_app, El.
      apply runs_front. assert (Ib : In b bins) by (apply SB; left; reflexivity). destruct (GB' b Ib) as [[N _] _]. destruct (SUB b Ib) as [L _].
      destruct (split_spec (o_target o) fuel (b_items b) Hm L N) as [ps [E' [C [NE _]]]]. assert (ps = q) by congruence. subst ps.
      replace (frags_of b) with (concat (map (map fst) q)) by (unfold frags_of; rewrite <- C, concat_map; reflexivity).
      apply runs_split; [|apply IH; [intros c Ic; apply SB; right; exact Ic|exact R]]. apply Forall_forall. intros p I. apply in_map_iff in I as [p' [<- I]].
      rewrite Forall_forall in NE. specialize (NE p' I). destruct p'; [congruence|discriminate]. }
    apply (X bins ys frags F2); auto.
  - intros t I. apply IN in I as [b [p [ps [Ib [E [Ip ->]]]]]]. destruct (GB' b Ib) as [[N G] NN]. rewrite Forall_forall in G. destruct (SUB b Ib) as [L SB].
    destruct (split_spec (o_target o) fuel (b_items b) Hm L N) as [ps' [E' [C [NE [S D]]]]]. assert (ps' = ps) by congruence. subst ps'. rewrite Forall_forall in NE, D.
    assert (PB : forall it, In it p -> In it (b_items b)) by (intros it J; rewrite <- C; apply in_concat; exists p; auto).
    split; [|split; [|split]].
    + intros f J. apply in_map_iff in J as [[f' c] [<- J]]. destruct (G _ (PB _ J)) as [CA _]. cbn in *. apply candidate_spec in CA. destruct c; auto.
    + intros f g ix l J K Iix El. apply in_map_iff in J as [[f' cf] [<- J]]. apply in_map_iff in K as [[g' cg] [<- K]].
      destruct (G _ (PB _ J)) as [_ Jf]. destruct (G _ (PB _ K)) as [_ Kg]. cbn in *. assert (X : fragmap ix (p_id f') = fragmap ix (p_id g')) by (apply (indices_iff ixs 0); [unfold indices_containing in *; congruence|exact Iix]).
      unfold fragmap in X. rewrite El in X. rewrite <- !memN_In. rewrite X. reflexivity.
    + rewrite map_length. destruct p as [|[f c] [|q p]]; [exfalso; apply (NE [] Ip); reflexivity| |left; cbn; lia]. right. exists f. split; [reflexivity|].
      destruct (G (f, c)) as [CA _]; [apply PB; left; reflexivity|]. cbn in CA. apply candidate_spec in CA. destruct c; [|exact CA]. exfalso. destruct S as [->|S].
      * destruct Ip as [Ip|[]]. unfold is_noop in NN. rewrite Ip in NN. discriminate.
      * rewrite Forall_forall in S. specialize (S _ Ip). unfold rows_of in S. cbn in S. unfold num_rows, small in *. lia.
    + intros a b' Eab HA. apply map_eq_app in Eab as [pa [pb [-> [<- <-]]]]. rewrite live_rows_of in *. eapply D; eauto.
  - intros f I B. destruct (COMP f (or_intror B)) as [c Hc]. assert (c = Itself) by (unfold candidate, by_itself in *; rewrite B in Hc; congruence). subst c.
    destruct (bins_complete o ixs frags None f Itself I Hc) as [b [Ib J]].
    destruct (CONT b (f, Itself)) as [t T]; [|exact J|eauto]. apply filter_In. split; [exact Ib|]. rewrite (not_noop_itself b f J). reflexivity.
  - intros l1 f g l2 E Hf' Hg HI0. assert (HI : indices_containing ixs (p_id f) = indices_containing ixs (p_id g)).
    { apply indices_ext. intros ix J. destruct (HI0 ix J) as [l [El X]]. unfold fragmap. rewrite El. apply eq_true_iff_eq. rewrite !memN_In. exact X. } destruct (COMP f Hf') as [cf Cf]. destruct (COMP g Hg) as [cg Cg].
    destruct (bins_adjacent o ixs l1 None f g l2 cf cg Cf Cg HI) as [b [pre [post [Ib Eb]]]]. rewrite <- E in Ib.
    assert (Ibb : In b bins) by (apply filter_In; split; [exact Ib|]; rewrite (not_noop_2 b f cf g cg pre post Eb); reflexivity).
    destruct (CONT b (f, cf) Ibb) as [t [It Jt]]; [rewrite Eb; apply in_or_app; right; left; reflexivity|].
    destruct (CONT b (g, cg) Ibb) as [u [Iu Ju]]; [rewrite Eb; apply in_or_app; right; right; left; reflexivity|].
    exists t, u. auto.
Qed.
(* target_rows_per_fragment = 0: planning does not end as soon as one fragment is
   to be compacted *)
Lemma split_zero : forall fuel items, split_for_size fuel 0 items = None.
Proof. induction fuel as [|k IH]; intros items; [reflexivity|]. cbn [split_for_size]. assert (E : bin_len 0 0 items = 0) by (destruct items as [|[f c] t]; reflexivity). rewrite E. cbn [Nat.leb]. rewrite IH. reflexivity. Qed.
Lemma zero_target_diverges : forall fuel o ixs frags f, o_target o = 0 -> In f frags -> by_itself o f -> plan_compaction fuel o ixs frags = None.
Proof.
  intros fuel o ixs frags f Z I B. assert (C : candidate o f = Some Itself) by (unfold candidate, by_itself in *; rewrite B; reflexivity).
  destruct (bins_complete o ixs frags None f Itself I C) as [b [Ib J]]. unfold plan_compaction.
  assert (Ibb : In b (filter (fun b => negb (is_noop b)) (bins_loop o ixs None frags))) by (apply filter_In; split; [exact Ib|]; rewrite (not_noop_itself b f J); reflexivity).
  revert Ibb. generalize (filter (fun b => negb (is_noop b)) (bins_loop o ixs None frags)). intros bs Ibb. rewrite Z.
  assert (E : sequence_opt (map (fun b0 => split_for_size fuel 0 (b_items b0)) bs) = None).
  { clear - Ibb. induction bs as [|x bs IH]; [destruct Ibb|]. cbn [map sequence_opt]. rewrite split_zero. reflexivity. }
  rewrite E. reflexivity.
Qed.
(* an index without fragment bitmap covers the fragments up to and including the
   largest id of the version it was built on; the plan leaves the last one out *)
Lemma legacy_index_refuted : exists o ix frags t, 0 < o_target o /\ pi_bitmap ix = None /\
  plan_compaction 5 o [ix] frags = Some [t] /\
  exists f g, In f t /\ In g t /\ (p_id f <= pi_max ix)%N /\ (pi_max ix < p_id g)%N.
Proof.
  exists {| o_target := 100; o_materialize := fun _ _ => false |}, {| pi_bitmap := None; pi_max := 1%N |},
    [{| p_id := 0%N; p_rows := 10; p_del := 0 |}; {| p_id := 1%N; p_rows := 10; p_del := 0 |}; {| p_id := 2%N; p_rows := 10; p_del := 0 |}],
    [{| p_id := 1%N; p_rows := 10; p_del := 0 |}; {| p_id := 2%N; p_rows := 10; p_del := 0 |}].
  split; [cbn; lia|]. split; [reflexivity|]. split; [reflexivity|].
  exists {| p_id := 1%N; p_rows := 10; p_del := 0 |}, {| p_id := 2%N; p_rows := 10; p_del := 0 |}. cbn. repeat split; auto; lia.
Qed.
Example plan_ex : let f i r d := {| p_id := i; p_rows := r; p_del := d |} in
  plan_compaction 20 {| o_target := 100; o_materialize := fun r d => r <? 10 * d |} [{| pi_bitmap := Some [0; 1; 2; 3; 4; 5]%N; pi_max := 5%N |}]
    [f 0%N 60 0; f 1%N 50 0; f 2%N 40 0; f 3%N 70 0; f 4%N 200 0; f 5%N 30 0; f 6%N 20 0; f 7%N 300 90] =
  Some [[f 0%N 60 0; f 1%N 50 0]; [f 2%N 40 0; f 3%N 70 0]; [f 6%N 20 0; f 7%N 300 90]].
Proof. reflexivity. Qed.
