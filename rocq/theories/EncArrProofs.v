From Coq Require Import List Arith NArith Bool Lia ZifyBool ZifyN ZifyNat.
From Verif Require Import Lib RowIdsModel RowIdsSpec.
Import ListNotations.
Local Open Scope nat_scope.

Lemma sinc_ninc : forall l, sinc l -> ninc l.
Proof.
  induction l; simpl; auto. intros [H1 H2]. split; auto.
  intros y Hy. specialize (H1 y Hy). lia.
Qed.

Lemma ninc_map_add : forall b l, ninc (map (fun x => b + x)%N l) <-> ninc l.
Proof.
  induction l; simpl; [tauto|]. rewrite IHl. split; intros [H1 H2]; split; auto.
  - intros y Hy. specialize (H1 (b + y)%N). rewrite in_map_iff in H1.
    assert (b + a <= b + y)%N by (apply H1; eauto). lia.
  - intros y Hy. rewrite in_map_iff in Hy. destruct Hy as [x [<- Hx]].
    specialize (H1 x Hx). lia.
Qed.

Lemma slice_bsearch_from_spec : forall l v i, ninc l ->
  match slice_bsearch_from i l v with
  | BOk k => i <= k /\ nth_error l (k - i) = Some v
  | BErr k => i <= k /\ k - i <= length l /\
              (forall x, In x (firstn (k - i) l) -> (x < v)%N) /\
              (forall x, In x (skipn (k - i) l) -> (v < x)%N)
  end.
Proof.
  induction l as [|a l IH]; intros v i Hn; cbn [slice_bsearch_from].
  - repeat split; try lia; rewrite Nat.sub_diag; simpl; tauto.
  - destruct Hn as [H1 H2].
    destruct (a =? v)%N eqn:E1.
    + apply N.eqb_eq in E1. subst. split; auto. now rewrite Nat.sub_diag.
    + destruct (v <? a)%N eqn:E2.
      * repeat split; try lia; rewrite Nat.sub_diag; simpl; try tauto.
        intros x [<-|Hx]; [lia|]. specialize (H1 x Hx). lia.
      * specialize (IH v (S i) H2).
        destruct (slice_bsearch_from (S i) l v) as [k|k].
        -- destruct IH as [A B]. split; [lia|].
           replace (k - i) with (S (k - S i)) by lia. exact B.
        -- destruct IH as [A [B [C D]]].
           replace (k - i) with (S (k - S i)) by lia.
           cbn [length firstn skipn In]. repeat split; try lia; auto.
           intros x [<-|Hx]; [lia|auto].
Qed.

Lemma slice_bsearch_ok : forall l v, ninc l -> bsearch_correct l v (slice_bsearch l v).
Proof.
  intros l v H. unfold slice_bsearch. generalize (slice_bsearch_from_spec l v 0 H).
  destruct (slice_bsearch_from 0 l v) as [k|k]; simpl; rewrite Nat.sub_0_r; tauto.
Qed.

Lemma bsearch_err_notin : forall l v i, bsearch_correct l v (BErr i) -> ~ In v l.
Proof.
  intros l v i [H [H1 H2]] Hin.
  rewrite <- (firstn_skipn i l) in Hin. apply in_app_or in Hin. destruct Hin as [Hi|Hi].
  - specialize (H1 _ Hi). lia.
  - specialize (H2 _ Hi). lia.
Qed.

Lemma bsearch_is_err : forall l v r, bsearch_correct l v r -> bs_is_err r = negb (memN v l).
Proof.
  intros l v [i|i] H; simpl.
  - simpl in H. apply nth_error_In in H. apply memN_In in H. now rewrite H.
  - apply bsearch_err_notin in H. apply memN_false in H. now rewrite H.
Qed.

Lemma bsearch_correct_shift : forall b o v r, (b <= v)%N ->
  bsearch_correct o (v - b) r -> bsearch_correct (map (fun x => b + x)%N o) v r.
Proof.
  intros b o v [i|i] Hb H; simpl in *.
  - rewrite nth_error_map, H. simpl. f_equal. lia.
  - rewrite map_length. destruct H as [H [H1 H2]]. repeat split; auto.
    + intros x Hx. rewrite firstn_map, in_map_iff in Hx. destruct Hx as [y [<- Hy]].
      specialize (H1 _ Hy). lia.
    + intros x Hx. rewrite skipn_map, in_map_iff in Hx. destruct Hx as [y [<- Hy]].
      specialize (H2 _ Hy). lia.
Qed.

Lemma ea_bsearch_ok : forall a v, ea_wf a -> ninc (ea_iter a) ->
  bsearch_correct (ea_iter a) v (ea_bsearch a v).
Proof.
  assert (G : forall m b o v, Forall (fun x => (x <= m)%N) o -> ninc (map (fun x => b + x)%N o) ->
     bsearch_correct (map (fun x => b + x)%N o) v
       (if (v <? b)%N then BErr 0
        else let w := (v - b)%N in if (m <? w)%N then BErr (length o) else slice_bsearch o w)).
  { intros m b o v Hf Hn. destruct (v <? b)%N eqn:E.
    - simpl. repeat split; try lia; try tauto.
      intros x Hx. rewrite in_map_iff in Hx. destruct Hx as [y [<- Hy]]. lia.
    - cbv zeta. destruct (m <? v - b)%N eqn:E2.
      + simpl. rewrite map_length. repeat split; auto.
        * intros x Hx. rewrite <- (map_length (fun x => (b + x)%N)) in Hx.
          rewrite firstn_all, in_map_iff in Hx. destruct Hx as [y [<- Hy]].
          rewrite Forall_forall in Hf. specialize (Hf _ Hy). lia.
        * intros x Hx. rewrite <- (map_length (fun x => (b + x)%N)) in Hx.
          rewrite skipn_all in Hx. destruct Hx.
      + apply bsearch_correct_shift; [lia|]. apply slice_bsearch_ok.
        now apply ninc_map_add in Hn. }
  intros [b o|b o|l] v Hw Hn; simpl in *.
  - apply (G u16_max); tauto.
  - apply (G u32_max); tauto.
  - now apply slice_bsearch_ok.
Qed.

Lemma fold_min_le : forall l x, (fold_left N.min l x <= x)%N /\
  (forall y, In y l -> (fold_left N.min l x <= y)%N) /\
  (fold_left N.min l x = x \/ In (fold_left N.min l x) l).
Proof.
  induction l; simpl; intros x.
  - repeat split; auto; [lia|tauto].
  - destruct (IHl (N.min x a)) as [H1 [H2 H3]]. repeat split.
    + lia.
    + intros y [<-|Hy]; [lia|auto].
    + destruct H3 as [H3|H3]; auto. rewrite H3.
      destruct (N.min_spec x a) as [[_ E]|[_ E]]; rewrite E; auto.
Qed.

Lemma fold_max_ge : forall l x, (x <= fold_left N.max l x)%N /\
  (forall y, In y l -> (y <= fold_left N.max l x)%N) /\
  (fold_left N.max l x = x \/ In (fold_left N.max l x) l).
Proof.
  induction l; simpl; intros x.
  - repeat split; auto; [lia|tauto].
  - destruct (IHl (N.max x a)) as [H1 [H2 H3]]. repeat split.
    + lia.
    + intros y [<-|Hy]; [lia|auto].
    + destruct H3 as [H3|H3]; auto. rewrite H3.
      destruct (N.max_spec x a) as [[_ E]|[_ E]]; rewrite E; auto.
Qed.

Lemma list_minN_spec : forall l m, list_minN l = Some m -> In m l /\ forall y, In y l -> (m <= y)%N.
Proof.
  intros [|x l] m H; simpl in H; [discriminate|]. injection H as <-.
  destruct (fold_min_le l x) as [H1 [H2 H3]]. split.
  - destruct H3 as [->|H3]; simpl; auto.
  - intros y [<-|Hy]; auto.
Qed.

Lemma list_maxN_spec : forall l m, list_maxN l = Some m -> In m l /\ forall y, In y l -> (y <= m)%N.
Proof.
  intros [|x l] m H; simpl in H; [discriminate|]. injection H as <-.
  destruct (fold_max_ge l x) as [H1 [H2 H3]]. split.
  - destruct H3 as [->|H3]; simpl; auto.
  - intros y [<-|Hy]; auto.
Qed.

Lemma map_id_in : forall {A} (f : A -> A) l, (forall x, In x l -> f x = x) -> map f l = l.
Proof. induction l; simpl; intros; auto. rewrite H by auto. f_equal; auto. Qed.

Lemma ea_from_iter : forall l, ea_iter (ea_from l) = l.
Proof.
  intros [|x l]; [reflexivity|].
  unfold ea_from.
  destruct (list_minN (x :: l)) as [mn|] eqn:Emn; [|discriminate].
  destruct (list_maxN (x :: l)) as [mx|] eqn:Emx; [|discriminate].
  destruct (list_minN_spec _ _ Emn) as [_ Hmn].
  destruct (list_maxN_spec _ _ Emx) as [_ Hmx].
  destruct (mx - mn <=? u16_max)%N eqn:E1; [|destruct (mx - mn <=? u32_max)%N eqn:E2];
    [| |reflexivity]; unfold ea_iter; rewrite map_map; apply map_id_in;
    intros y Hy; specialize (Hmn _ Hy); specialize (Hmx _ Hy);
    unfold u16_max, u32_max in *; rewrite N.mod_small; lia.
Qed.

Lemma ea_from_wf : forall l, Forall (fun x => (x < two64)%N) l -> ea_wf (ea_from l).
Proof.
  intros [|x l] Hb; [constructor|].
  assert (HI := ea_from_iter (x :: l)).
  unfold ea_from in *.
  destruct (list_minN (x :: l)) as [mn|] eqn:Emn; [|discriminate].
  destruct (list_maxN (x :: l)) as [mx|] eqn:Emx; [|discriminate].
  destruct (list_minN_spec _ _ Emn) as [Imn Hmn].
  destruct (list_maxN_spec _ _ Emx) as [_ Hmx].
  destruct (mx - mn <=? u16_max)%N eqn:E1; [|destruct (mx - mn <=? u32_max)%N eqn:E2].
  - unfold ea_wf. unfold ea_iter in HI. split; [|split].
    + apply Forall_forall. intros y Hy. apply in_map_iff in Hy. destruct Hy as [z [<- Hz]].
      assert ((z - mn) mod 65536 < 65536)%N by (apply N.mod_lt; lia). unfold u16_max; lia.
    + apply Forall_forall. intros y Hy. rewrite Forall_forall in Hb. apply Hb.
      rewrite <- HI. apply in_map_iff. exists y. split; auto.
    + intros _. apply in_map_iff. exists mn. split; auto. now rewrite N.sub_diag.
  - unfold ea_wf. unfold ea_iter in HI. split; [|split].
    + apply Forall_forall. intros y Hy. apply in_map_iff in Hy. destruct Hy as [z [<- Hz]].
      assert ((z - mn) mod 4294967296 < 4294967296)%N by (apply N.mod_lt; lia). unfold u32_max; lia.
    + apply Forall_forall. intros y Hy. rewrite Forall_forall in Hb. apply Hb.
      rewrite <- HI. apply in_map_iff. exists y. split; auto.
    + intros _. apply in_map_iff. exists mn. split; auto. now rewrite N.sub_diag.
  - exact Hb.
Qed.

Lemma ea_len_iter : forall a, ea_len a = length (ea_iter a).
Proof. intros []; simpl; auto; now rewrite map_length. Qed.

Lemma ea_get_iter : forall a i, ea_get a i = nth_error (ea_iter a) i.
Proof.
  intros [b o|b o|l] i; simpl; auto; rewrite nth_error_map;
    (destruct (i <? length o) eqn:E;
     [destruct (nth_error o i); auto
     |apply Nat.ltb_ge in E; apply nth_error_None in E; now rewrite E]).
Qed.

Lemma hd_error_map : forall {A B} (f : A -> B) l, hd_error (map f l) = omap f (hd_error l).
Proof. intros. destruct l; auto. Qed.

Lemma lastN_map : forall b l, lastN (map (fun x => b + x)%N l) = omap (fun x => b + x)%N (lastN l).
Proof.
  intros b l. destruct l as [|x l]; auto.
  revert x. induction l as [|a l IH]; intros x; [reflexivity|].
  specialize (IH a). cbn in *. destruct l; cbn in *; auto.
Qed.

Lemma ea_first_iter : forall a, ea_first a = hd_error (ea_iter a).
Proof. intros [b o|b o|l]; simpl; auto; now rewrite hd_error_map. Qed.

Lemma ea_last_iter : forall a, ea_last a = lastN (ea_iter a).
Proof. intros [b o|b o|l]; simpl; auto; now rewrite lastN_map. Qed.

Lemma ea_min_spec : forall a, ea_wf a -> ea_iter a <> [] ->
  exists m, ea_min a = Some m /\ In m (ea_iter a) /\ forall y, In y (ea_iter a) -> (m <= y)%N.
Proof.
  assert (G : forall b o, (o <> [] -> In 0%N o) -> map (fun x => b + x)%N o <> [] ->
    exists m, match o with [] => None | _ => Some b end = Some m /\
       In m (map (fun x => b + x)%N o) /\ forall y, In y (map (fun x => b + x)%N o) -> (m <= y)%N).
  { intros b o H0 Hne. exists b. split; [|split].
    - destruct o; auto. now destruct Hne.
    - apply in_map_iff. exists 0%N. split; [lia|]. apply H0. intros ->. now apply Hne.
    - intros y Hy. apply in_map_iff in Hy. destruct Hy as [z [<- _]]. lia. }
  intros [b o|b o|l] Hw Hne; simpl in *.
  - apply G; tauto.
  - apply G; tauto.
  - destruct (list_minN l) as [m|] eqn:E; [|destruct l; [now destruct Hne|discriminate]].
    exists m. split; auto. now apply list_minN_spec.
Qed.

Lemma list_maxN_map : forall b l, omap (fun m => b + m)%N (list_maxN l) = list_maxN (map (fun x => b + x)%N l).
Proof.
  intros b [|x l]; auto. simpl. f_equal. revert x.
  induction l; simpl; auto. intros x. rewrite IHl. f_equal. lia.
Qed.

Lemma ea_max_iter : forall a, ea_max a = list_maxN (ea_iter a).
Proof. intros [b o|b o|l]; simpl; auto; apply list_maxN_map. Qed.

Lemma slice_list_Some : forall {A} (l : list A) off len, off + len <= length l ->
  slice_list l off len = Some (firstn len (skipn off l)).
Proof. intros. unfold slice_list. apply Nat.leb_le in H. now rewrite H. Qed.

Lemma ea_iter_bound : forall a, ea_wf a -> Forall (fun x => (x < two64)%N) (ea_iter a).
Proof.
  intros [b o|b o|l]; simpl; intros; auto; apply Forall_forall; intros y Hy;
  apply in_map_iff in Hy; destruct Hy as [x [<- Hx]]; destruct H as [_ [H _]];
  rewrite Forall_forall in H; auto.
Qed.

Lemma Forall_firstn_skipn : forall {A} (P : A -> Prop) l o n, Forall P l -> Forall P (firstn n (skipn o l)).
Proof.
  intros. rewrite Forall_forall in *. intros x Hx. apply H.
  rewrite <- (firstn_skipn o l). apply in_or_app. right.
  rewrite <- (firstn_skipn n (skipn o l)). apply in_or_app. now left.
Qed.

Lemma ea_slice_spec : forall a off len, ea_wf a -> off + len <= length (ea_iter a) ->
  exists b, ea_slice a off len = Some b /\ ea_wf b /\ ea_iter b = firstn len (skipn off (ea_iter a)).
Proof.
  intros a off len Hw Hl. assert (Hb := ea_iter_bound _ Hw).
  destruct a as [b o|b o|l]; simpl in *.
  - rewrite map_length in Hl. rewrite slice_list_Some by auto. simpl. eexists. split; [reflexivity|].
    assert (E : map (fun x => b + x)%N (firstn len (skipn off o)) =
                firstn len (skipn off (map (fun x => b + x)%N o))) by now rewrite skipn_map, firstn_map.
    split; [apply ea_from_wf; rewrite E; now apply Forall_firstn_skipn|now rewrite ea_from_iter].
  - rewrite map_length in Hl. rewrite slice_list_Some by auto. simpl. eexists. split; [reflexivity|].
    assert (E : map (fun x => b + x)%N (firstn len (skipn off o)) =
                firstn len (skipn off (map (fun x => b + x)%N o))) by now rewrite skipn_map, firstn_map.
    split; [apply ea_from_wf; rewrite E; now apply Forall_firstn_skipn|now rewrite ea_from_iter].
  - rewrite slice_list_Some by auto. simpl. eexists. split; [reflexivity|]. simpl.
    split; auto. now apply Forall_firstn_skipn.
Qed.

Lemma nrange0_map : forall n mn a, map (fun x => mn + x)%N (nrange a n) = nrange (mn + a) n.
Proof. induction n; simpl; intros; auto. f_equal. rewrite IHn. f_equal. lia. Qed.

(* From<Range<u64>> *)
Lemma ea_from_range_iter : forall mn mx, (mn <= mx)%N ->
  exists a, ea_from_range mn mx = Some a /\ ea_iter a = nrange mn (N.to_nat (mx - mn)).
Proof.
  intros mn mx H. unfold ea_from_range. replace (mx <? mn)%N with false by lia.
  destruct (mx - mn <? u16_max)%N; [|destruct (mx - mn <? u32_max)%N]; eexists; (split; [reflexivity|]);
  simpl; auto; rewrite nrange0_map; f_equal; lia.
Qed.

Lemma enc_array_like : forall a, ea_wf a -> array_like (ea_iter a) a.
Proof.
  intros a Hw. unfold array_like. repeat split.
  - apply ea_len_iter.
  - apply ea_get_iter.
  - apply ea_first_iter.
  - rewrite ea_last_iter. reflexivity.
  - destruct (ea_iter a) eqn:E.
    + destruct a as [b o|b o|l0]; simpl in *; subst; try discriminate;
      destruct o; try discriminate.
    + destruct (ea_min_spec a Hw) as [m' [H1 [H2 H3]]]; [congruence|].
      rewrite H1 in H. injection H as <-. now rewrite <- E.
  - intros y Hy. destruct (ea_min_spec a Hw) as [m' [H1 [H2 H3]]].
    + intros E. now rewrite E in Hy.
    + rewrite H1 in H. injection H as <-. auto.
  - intros [H1 H2]. destruct (ea_min_spec a Hw) as [m' [H3 [H4 H5]]].
    + intros E. now rewrite E in H1.
    + rewrite H3. f_equal. specialize (H2 _ H4). specialize (H5 _ H1). lia.
  - rewrite ea_max_iter in H. now apply list_maxN_spec in H.
  - intros y Hy. rewrite ea_max_iter in H. apply list_maxN_spec in H. now apply H.
  - intros [H1 H2]. rewrite ea_max_iter. destruct (list_maxN (ea_iter a)) as [m'|] eqn:E.
    + apply list_maxN_spec in E. destruct E as [E1 E2]. f_equal.
      specialize (E2 _ H1). specialize (H2 _ E1). lia.
    + destruct (ea_iter a); [destruct H1|discriminate].
  - intros Hn v. now apply ea_bsearch_ok.
  - intros off len Hl. destruct (ea_slice_spec a off len Hw Hl) as [b [H1 [_ H2]]]. eauto.
Qed.

Lemma enc_array_from_like : forall l, Forall (fun x => (x < two64)%N) l -> array_like l (ea_from l).
Proof.
  intros l H. rewrite <- (ea_from_iter l) at 1. apply enc_array_like. now apply ea_from_wf.
Qed.

Example enc_array_ex : array_like [5; 70000; 5000000000]%N (ea_from [5; 70000; 5000000000]%N)
  /\ ea_bsearch (ea_from [5; 9; 300]%N) 9 = BOk 1 /\ ea_bsearch (ea_from [5; 9; 300]%N) 10 = BErr 2.
Proof.
  split; [apply enc_array_from_like; repeat constructor; vm_compute; reflexivity|].
  split; reflexivity.
Qed.
