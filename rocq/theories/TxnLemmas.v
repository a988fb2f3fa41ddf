(* Lemmas on the transaction model. *)
From Coq Require Import List Arith NArith ZArith Bool Lia Permutation.
From Coq Require Import ZifyBool ZifyN ZifyNat.
From Verif Require Import Lib AMap TreeMapModel SerdeModel TxnModel.
Import ListNotations.
Local Open Scope N_scope.

Lemma bbind_ok : forall {A B} (r : bres A) (k : A -> bres B) b, bbind r k = BOk b -> exists a, r = BOk a /\ k a = BOk b.
Proof. intros A B [a| |] k b H; cbn in H; try discriminate. eauto. Qed.

(* ---- sorting ---- *)
Lemma insert_frag_perm : forall f l, Permutation (insert_frag f l) (f :: l).
Proof.
  induction l as [|g t IH]; cbn [insert_frag]; auto. destruct (f_id f <=? f_id g); auto.
  rewrite IH. apply perm_swap.
Qed.
Lemma sort_frags_perm : forall l, Permutation (sort_frags l) l.
Proof. induction l as [|f t IH]; cbn [sort_frags fold_right]; auto. rewrite insert_frag_perm. now constructor. Qed.
Lemma sort_frags_In : forall l f, In f (sort_frags l) <-> In f l.
Proof. intros. split; apply Permutation_in; [|apply Permutation_sym]; apply sort_frags_perm. Qed.

Fixpoint nondec_ids (l : list fragment) : Prop :=
  match l with [] => True | f :: t => (forall g, In g t -> f_id f <= f_id g) /\ nondec_ids t end.
Lemma insert_frag_sorted : forall f l, nondec_ids l -> nondec_ids (insert_frag f l).
Proof.
  induction l as [|g t IH]; intros H; cbn [insert_frag].
  - cbn. split; auto; intros ? [].
  - destruct H as [H1 H2]. destruct (f_id f <=? f_id g) eqn:E.
    + cbn [nondec_ids]. split; [|split; auto]. intros x [<-|Hx]; [lia|]. specialize (H1 x Hx). lia.
    + cbn [nondec_ids]. split; auto. intros x Hx. apply (Permutation_in _ (insert_frag_perm f t)) in Hx. destruct Hx as [<-|Hx]; [lia|auto].
Qed.
Lemma sort_frags_sorted : forall l, nondec_ids (sort_frags l).
Proof. induction l; cbn [sort_frags fold_right]; [exact I|]. now apply insert_frag_sorted. Qed.
Lemma sorted_NoDup_sinc : forall l, nondec_ids l -> NoDup (map f_id l) -> sinc (map f_id l).
Proof.
  induction l as [|f t IH]; intros Hs Hn; [exact I|]. destruct Hs as [H1 H2]. inversion Hn; subst. cbn [map sinc]. split; auto.
  intros y Hy. apply in_map_iff in Hy as [g [<- Hg]]. specialize (H1 g Hg). assert (f_id f <> f_id g); [|lia].
  intros E. apply H3. rewrite E. now apply in_map.
Qed.
(* a list already sorted is left alone *)
Lemma sort_frags_id : forall l, nondec_ids l -> sort_frags l = l.
Proof.
  induction l as [|f t IH]; intros H; auto. destruct H as [H1 H2]. cbn [sort_frags fold_right]. fold (sort_frags t). rewrite IH by auto.
  destruct t as [|g t]; auto. cbn [insert_frag]. specialize (H1 g (or_introl eq_refl)). destruct (f_id f <=? f_id g) eqn:E; auto. lia.
Qed.
Lemma sinc_nondec : forall l, sinc (map f_id l) -> nondec_ids l.
Proof.
  induction l as [|f t IH]; intros H; [exact I|]. destruct H as [H1 H2]. split; auto.
  intros g Hg. specialize (H1 (f_id g) (in_map _ _ _ Hg)). lia.
Qed.

Lemma maxN_bound : forall l x, In x l -> x <= maxN l.
Proof. induction l as [|y t IH]; intros x H; [destruct H|]. cbn [maxN fold_right]. destruct H as [->|H]; [lia|]. specialize (IH x H). unfold maxN in IH. lia. Qed.
Lemma maxN_le : forall l b, (forall x, In x l -> x <= b) -> maxN l <= b.
Proof. induction l as [|y t IH]; intros b H; cbn [maxN fold_right]; [lia|]. specialize (IH b (fun x Hx => H x (or_intror Hx))). specialize (H y (or_introl eq_refl)). unfold maxN in IH. lia. Qed.

(* ---- fragments_with_ids ---- *)
Lemma with_ids_next : forall l n, n <= snd (fragments_with_ids l n).
Proof.
  induction l as [|f t IH]; intros n; cbn [fragments_with_ids]; [reflexivity|]. destruct (f_id f =? 0).
  - specialize (IH (n + 1)). destruct (fragments_with_ids t (n + 1)). cbn in *. lia.
  - specialize (IH n). destruct (fragments_with_ids t n). cbn in *. lia.
Qed.
Lemma with_ids_In : forall l n g, In g (fst (fragments_with_ids l n)) ->
  exists f, In f l /\ ((f_id f <> 0 /\ g = f) \/ (f_id f = 0 /\ exists i, g = set_id f i /\ n <= i < snd (fragments_with_ids l n))).
Proof.
  induction l as [|f t IH]; intros n g H; [destruct H|]. cbn [fragments_with_ids] in *. destruct (f_id f =? 0) eqn:E.
  - specialize (IH (n + 1)). pose proof (with_ids_next t (n + 1)) as Hn. destruct (fragments_with_ids t (n + 1)) as [r m]. cbn [fst snd] in *.
    destruct H as [<-|H].
    + exists f. split; [now left|]. right. split; [lia|]. exists n. split; auto. lia.
    + destruct (IH g H) as [f' [Hf [C|[C1 [i [C2 C3]]]]]]; exists f'; (split; [now right|]); auto.
      right. split; auto. exists i. split; auto. lia.
  - specialize (IH n). pose proof (with_ids_next t n) as Hn. destruct (fragments_with_ids t n) as [r m]. cbn [fst snd] in *.
    destruct H as [<-|H].
    + exists f. split; [now left|]. left. split; auto. lia.
    + destruct (IH g H) as [f' [Hf C]]. exists f'. split; [now right|exact C].
Qed.
(* ids given by the caller *)
Definition explicit_ids (l : list fragment) : list N := filter (fun i => negb (i =? 0)) (map f_id l).
Lemma explicit_In : forall l i, In i (explicit_ids l) <-> i <> 0 /\ exists f, In f l /\ f_id f = i.
Proof.
  intros. unfold explicit_ids. rewrite filter_In, in_map_iff. split.
  - intros [[f [E H]] H2]. split; [lia|eauto].
  - intros [H1 [f [H2 H3]]]. split; eauto. destruct (i =? 0) eqn:E; auto. lia.
Qed.
Lemma with_ids_NoDup : forall l n, NoDup (explicit_ids l) -> (forall i, In i (explicit_ids l) -> i < n) ->
  NoDup (map f_id (fst (fragments_with_ids l n))).
Proof.
  induction l as [|f t IH]; intros n Hd Hl; [constructor|]. cbn [fragments_with_ids]. unfold explicit_ids in Hd, Hl. cbn [map filter] in Hd, Hl.
  destruct (f_id f =? 0) eqn:E; cbn [negb] in *.
  - specialize (IH (n + 1) Hd). pose proof (with_ids_In t (n + 1)) as Hin. destruct (fragments_with_ids t (n + 1)) as [r m]. cbn [fst snd map] in *.
    constructor; [|apply IH; intros i Hi; specialize (Hl i Hi); lia]. cbn. intros C. apply in_map_iff in C as [g [C1 C2]].
    destruct (Hin g C2) as [f' [Hf [[C3 C4]|[C3 [i [C4 C5]]]]]]; subst g.
    + assert (In (f_id f') (explicit_ids t)) by (apply explicit_In; eauto). specialize (Hl _ H). lia.
    + cbn in C1. lia.
  - inversion Hd; subst. specialize (IH n H2 (fun i Hi => Hl i (or_intror Hi))). pose proof (with_ids_In t n) as Hin.
    destruct (fragments_with_ids t n) as [r m]. cbn [fst snd map] in *. constructor; auto. intros C. apply in_map_iff in C as [g [C1 C2]].
    destruct (Hin g C2) as [f' [Hf [[C3 C4]|[C3 [i [C4 C5]]]]]]; subst g.
    + apply H1. apply (explicit_In t). rewrite <- C1. split; eauto.
    + cbn in C1. specialize (Hl (f_id f) (or_introl eq_refl)). lia.
Qed.

(* ---- row ids ---- *)
Definition ids_of (f : fragment) : list N := match f_rowids f with Some l => l | None => [] end.
Lemma assign_spec : forall l n l' n', assign_row_ids n l = BOk (l', n') ->
  map f_id l' = map f_id l /\ map f_files l' = map f_files l /\ map f_del l' = map f_del l /\ map f_rows l' = map f_rows l /\
  n <= n' /\ flat_map ids_of l' = nrange n (N.to_nat (n' - n)) /\
  Forall (fun f => exists r k, f_rowids f = Some r /\ f_rows f = Some k /\ length r = N.to_nat k) l'.
Proof.
  induction l as [|f t IH]; intros n l' n' H; cbn [assign_row_ids] in H.
  - injection H as <- <-. repeat split; auto; [lia|]. now rewrite N.sub_diag.
  - destruct (f_rows f) as [k|] eqn:Ek; [|discriminate]. apply bbind_ok in H as [[r m] [H1 H2]]. injection H2 as <- <-.
    destruct (IH _ _ _ H1) as [E1 [E2 [E3 [E4 [E5 [E6 E7]]]]]]. cbn [map flat_map]. rewrite E1, E2, E3, E4.
    split; [reflexivity|]. split; [reflexivity|]. split; [reflexivity|]. split; [cbn; reflexivity|]. split; [lia|]. split.
    + rewrite E6. unfold ids_of at 1. cbn [f_rowids set_rowids].
      replace (N.to_nat (m - n)) with (N.to_nat k + N.to_nat (m - (n + k)))%nat by lia.
      rewrite nrange_app. f_equal. f_equal. lia.
    + constructor; auto. exists (nrange n (N.to_nat k)), k. cbn. rewrite nrange_length. auto.
Qed.
Lemma with_row_ids_ids : forall nr l l' nr', with_row_ids nr l = BOk (l', nr') -> map f_id l' = map f_id l.
Proof.
  intros [n|] l l' nr' H; cbn [with_row_ids] in H.
  - apply bbind_ok in H as [[a b] [H1 H2]]. injection H2 as <- <-. now apply assign_spec in H1.
  - now injection H as <- <-.
Qed.

(* ---- inversion of build_manifest ---- *)
Definition next_id (o : op) (cur : option manifest) : N :=
  match o with
  | Overwrite _ _ _ => 0
  | _ => match cur with Some m => match max_fragment_id m with Some i => i + 1 | None => 0 end | None => 0 end
  end.
Definition op_schema (o : op) (cur : option manifest) : bres schema :=
  match o with
  | Overwrite _ s _ | Merge _ s | Project s => BOk s
  | _ => match cur with Some m => BOk (m_schema m) | None => BErr end
  end.
Definition cur_max (cur : option manifest) : N := match cur with Some m => m_max m | None => 0 end.
Definition cur_config (cur : option manifest) : amap N := match cur with Some m => m_config m | None => [] end.
Definition cur_frags (cur : option manifest) : list fragment := match cur with Some m => m_fragments m | None => [] end.

Lemma build_inv : forall t cur ixs file c m' ixs', build_manifest t cur ixs file c = BOk (m', ixs') ->
  exists sch nr fs nr', op_schema (t_op t) cur = BOk sch /\ start_next_row cur c = BOk nr /\
    apply_op (t_op t) cur sch ixs (next_id (t_op t) cur) nr = BOk (fs, ixs', nr') /\
    m_fragments m' = sort_frags fs /\ maxN (map f_id fs) < two32 /\
    m_max m' = N.max (cur_max cur) (maxN (map f_id fs)) + match t_op t with ReserveFragments n => n | _ => 0 end /\
    match t_op t with ReserveFragments n => m_max m' < two32 | _ => True end /\
    m_config m' = fst (apply_config (t_op t) (cur_config cur) sch) /\
    m_schema m' = snd (apply_config (t_op t) (cur_config cur) sch) /\
    m_next_row m' = match nr' with Some n => n | None => match cur with Some m => m_next_row m | None => 0 end end /\
    m_version m' = match cur with Some m => m_version m + 1 | None => 1 end /\
    (wc_auto_flags c = true -> feature_flags (m_fragments m') (cur_config cur) (wc_stable c) = BOk (m_rflags m', m_wflags m')).
Proof.
  intros t cur ixs file c m' ixs' H. unfold build_manifest in H.
  destruct (match cur with Some m => _ | None => false end) eqn:G; [discriminate|].
  apply bbind_ok in H as [sch [S1 H]]. apply bbind_ok in H as [nr [S2 H]]. apply bbind_ok in H as [[[fs ix2] nr'] [S3 H]].
  apply bbind_ok in H as [[rf wf] [S4 H]]. apply bbind_ok in H as [mx [S5 H]].
  destruct (apply_config (t_op t) _ sch) as [cfg sch'] eqn:Ec. apply bbind_ok in H as [mx' [S6 H]]. injection H as <- <-. cbn.
  assert (Hperm : maxN (map f_id (sort_frags fs)) = maxN (map f_id fs)).
  { apply N.le_antisymm; apply maxN_le; intros x Hx; apply maxN_bound; eapply Permutation_in; try exact Hx; apply Permutation_map;
      [|apply Permutation_sym]; apply sort_frags_perm. }
  unfold update_max_fragment_id in S5. rewrite Hperm in S5. destruct (two32 <=? maxN (map f_id fs)) eqn:Em; [discriminate|]. injection S5 as S5.
  exists sch, nr, fs, nr'. split; [exact S1|]. split; [exact S2|]. split; [exact S3|]. split; [reflexivity|]. split; [lia|]. split; [|split; [|split; [|split; [|split; [|split]]]]].
  - fold (cur_max cur) in S5. assert (mx = N.max (cur_max cur) (maxN (map f_id fs))) as -> by (destruct (cur_max cur <? maxN (map f_id fs)) eqn:E; lia).
    destruct (t_op t); try (injection S6 as <-; lia). destruct (two32 <=? _ + num); [discriminate|]. now injection S6 as <-.
  - destruct (t_op t); auto. destruct (two32 <=? mx + num) eqn:E; [discriminate|]. injection S6 as <-. lia.
  - unfold cur_config. now rewrite Ec.
  - unfold cur_config. now rewrite Ec.
  - reflexivity.
  - reflexivity.
  - intros Ha. rewrite Ha in S4. exact S4.
Qed.

Lemma finish_inv : forall c m m', finish c m = BOk m' ->
  m_fragments m' = m_fragments m /\ m_version m' = m_version m /\ m_schema m' = m_schema m /\ m_next_row m' = m_next_row m /\
  m_config m' = m_config m /\ m_tag m' = m_tag m /\ m_txn m' = m_txn m /\ m_max m' = N.max (m_max m) (maxN (map f_id (m_fragments m))) /\
  (wc_auto_flags c = true -> feature_flags (m_fragments m') (m_config m') (wc_stable c) = BOk (m_rflags m', m_wflags m')) /\
  (wc_auto_flags c = false -> m_rflags m' = m_rflags m /\ m_wflags m' = m_wflags m).
Proof.
  intros c m m' H. unfold finish in H. apply bbind_ok in H as [[rf wf] [S1 H]]. apply bbind_ok in H as [mx [S2 H]]. injection H as <-. cbn.
  repeat split; auto.
  - unfold update_max_fragment_id in S2. destruct (two32 <=? _); [discriminate|]. injection S2 as <-. destruct (m_max m <? _) eqn:E; lia.
  - intros E. rewrite E in S1. exact S1.
  - rewrite H in S1. now injection S1 as <- <-.
  - rewrite H in S1. now injection S1 as <- <-.
Qed.
