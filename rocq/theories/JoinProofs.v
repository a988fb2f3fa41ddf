(* C100: joining columns from another table. *)
From Coq Require Import List Arith NArith ZArith Bool Lia String Permutation.
From Verif Require Import Lib RowIdsModel SerdeModel ReadParamsModel DeletionModel DeletionSpec DeletionProofs FragReadModel FragReadProofs SchemaModel SchemaProofs ProjModel AddColsModel AddColsProofs AlterModel AlterProofs JoinModel.
Import ListNotations.
Open Scope list_scope.
Local Open Scope nat_scope.

(* ---- specification ---- *)
(* a row of the right table, its key, and the values it gives to the columns other than the key *)
Definition right_row (bs : list (list (list cell))) (r : list cell) : Prop := exists b, In b bs /\ In r b.
Definition value (l : list rfield) (r : list cell) (n : string) : cell := match index_of n l with Some i => nth i r None | None => None end.
Definition right_ok (right : list rfield) (bs : list (list (list cell))) : Prop :=
  NoDup (map r_name right) /\ forall r, right_row bs r -> List.length r = List.length right.
(* the columns that are added *)
Definition added (on : string) (right out : list rfield) : Prop := out = filter (fun f => negb (String.eqb (r_name f) on)) right.
Definition gives (on : string) (right out : list rfield) (r vals : list cell) : Prop :=
  List.length vals = List.length out /\ forall f, In f out -> value out vals (r_name f) = value right r (r_name f).
(* a left join: the values of a row with the key, the last such row of some batch, or nulls if there is none *)
Definition join_row (on : string) (right : list rfield) (bs : list (list (list cell))) (out : list rfield) (k : cell) (vals : list cell) : Prop :=
  (exists b i r, In b bs /\ nth_error b i = Some r /\ value right r on = k /\ gives on right out r vals /\
     forall i' r', i < i' -> nth_error b i' = Some r' -> value right r' on <> k) \/
  ((forall r, right_row bs r -> value right r on <> k) /\ vals = map (fun _ => None) out).
Definition unique_keys (on : string) (right : list rfield) (bs : list (list (list cell))) : Prop :=
  NoDup (map (fun r => value right r on) (List.concat bs)).

(* ---- interleavings ---- *)
Lemma il_perm : forall {A} (ls : list (list A)) r, interleaving ls r -> Permutation (List.concat ls) r.
Proof.
  intros A ls r H. induction H as [ls F|ls1 x l ls2 r _ IH].
  - induction F as [|l ls -> _ IH]; [constructor|exact IH].
  - rewrite concat_app in *. cbn [List.concat app] in *. rewrite <- Permutation_middle. constructor. exact IH.
Qed.
Lemma il_order : forall {A} (ls : list (list A)) r, interleaving ls r -> forall l x l1 l2, In l ls -> l = l1 ++ x :: l2 -> exists o1 o2, r = o1 ++ x :: o2 /\ incl l2 o2.
Proof.
  intros A ls r H. induction H as [ls F|ls1 y l0 ls2 r H IH]; intros l x l1 l2 J E.
  - rewrite Forall_forall in F. rewrite (F l J) in E. destruct l1; discriminate.
  - apply in_app_or in J as [J|[J|J]].
    + destruct (IH l x l1 l2) as (o1 & o2 & -> & I); [apply in_or_app; auto|exact E|]. exists (y :: o1), o2. auto.
    + subst l. destruct l1 as [|z l1].
      * cbn in E. injection E as <- <-. exists [], r. split; [reflexivity|]. intros z J.
        apply (Permutation_in z (il_perm _ _ H)). apply in_concat. exists l0. split; [apply in_or_app; right; left; reflexivity|exact J].
      * cbn in E. injection E as <- E. destruct (IH l0 x l1 l2) as (o1 & o2 & -> & I); [apply in_or_app; right; left; reflexivity|exact E|]. exists (y :: o1), o2. auto.
    + destruct (IH l x l1 l2) as (o1 & o2 & -> & I); [apply in_or_app; right; right; exact J|exact E|]. exists (y :: o1), o2. auto.
Qed.
Lemma slots_in : forall bs b r, (exists l, In l (slots bs) /\ In (b, r) l) <-> (b < List.length bs /\ r < List.length (nth b bs [])).
Proof.
  intros bs b r. unfold slots. assert (G : forall (bs : list (list (list cell))) s, (exists l, In l (map (fun ib => map (pair (fst ib)) (seq 0 (List.length (snd ib)))) (combine (seq s (List.length bs)) bs)) /\ In (b, r) l) <->
    (s <= b < s + List.length bs /\ r < List.length (nth (b - s) bs []))).
  { clear bs. induction bs as [|x t IH]; intros s; cbn [List.length seq combine map].
    - split; [intros (l & [] & _)|lia].
    - split.
      + intros (l & [<-|J] & K).
        * cbn in K. apply in_map_iff in K as (r' & E & K). injection E as <- <-. apply in_seq in K. rewrite Nat.sub_diag. cbn. lia.
        * destruct (proj1 (IH (S s))) as [L R]; [eauto|]. replace (b - s) with (S (b - S s)) by lia. cbn [nth]. lia.
      + intros [L R]. destruct (Nat.eq_dec b s) as [->|N].
        * eexists. split; [left; reflexivity|]. cbn. rewrite Nat.sub_diag in R. cbn [nth] in R. apply in_map. apply in_seq. lia.
        * destruct (proj2 (IH (S s))) as (l & J & K); [|exists l; split; [right; exact J|exact K]].
          replace (b - s) with (S (b - S s)) in R by lia. cbn [nth] in R. lia. }
  rewrite (G bs 0), Nat.sub_0_r. intuition lia.
Qed.
Lemma slots_nodup : forall bs, NoDup (List.concat (slots bs)).
Proof.
  intros bs. unfold slots. assert (G : forall (bs : list (list (list cell))) s, NoDup (List.concat (map (fun ib => map (pair (fst ib)) (seq 0 (List.length (snd ib)))) (combine (seq s (List.length bs)) bs)))
    /\ forall p, In p (List.concat (map (fun ib => map (pair (fst ib)) (seq 0 (List.length (snd ib)))) (combine (seq s (List.length bs)) bs))) -> s <= fst p).
  { clear bs. induction bs as [|x t IH]; intros s; cbn [List.length seq combine map List.concat fst snd]; [split; [constructor|intros p []]|].
    destruct (IH (S s)) as [N L]. split.
    - apply NoDup_app_r; [|exact N|].
      + apply FinFun.Injective_map_NoDup; [intros a b E; congruence|apply seq_NoDup].
      + intros p J K. apply L in K. apply in_map_iff in J as (q & <- & _). cbn in K. lia.
    - intros p J. apply in_app_or in J as [J|J]; [apply in_map_iff in J as (q & <- & _); cbn; lia|]. apply L in J. lia. }
  apply G.
Qed.
Lemma right_row_at : forall bs r, right_row bs r <-> exists p, (fst p < List.length bs /\ snd p < List.length (nth (fst p) bs [])) /\ row_at bs p = r.
Proof.
  intros bs r. split.
  - intros (b & Jb & Jr). apply (In_nth _ _ []) in Jb as (i & Li & Ei). apply (In_nth _ _ []) in Jr as (k & Lk & Ek).
    exists (i, k). unfold row_at. cbn. rewrite Ei. auto.
  - intros ([i k] & [Li Lk] & <-). cbn in *. exists (nth i bs []). split; apply nth_In; assumption.
Qed.
Lemma order_in : forall bs order, interleaving (slots bs) order -> forall p, In p order <-> (fst p < List.length bs /\ snd p < List.length (nth (fst p) bs [])).
Proof.
  intros bs order H [b r]. cbn. rewrite <- (slots_in bs b r). rewrite <- in_concat.
  split; apply Permutation_in; [symmetry|]; apply il_perm; exact H.
Qed.

(* ---- the index: the latest insertion of a key ---- *)
Lemma cell_eqb_eq : forall a b, cell_eqb a b = true <-> a = b.
Proof. intros [a|] [b|]; cbn; rewrite ?Z.eqb_eq; split; intros; congruence. Qed.
Lemma index_rev : forall (key : nat * nat -> cell) order acc, fold_left (fun m p => (key p, p) :: m) order acc = map (fun p => (key p, p)) (rev order) ++ acc.
Proof.
  intros key. induction order as [|p t IH]; intros acc; cbn [fold_left rev]; [reflexivity|]. rewrite IH, map_app, <- app_assoc. reflexivity.
Qed.
Lemma find_latest : forall (key : nat * nat -> cell) k order,
  match find (fun e => cell_eqb (fst e) k) (map (fun p => (key p, p)) (rev order)) with
  | Some (k', p) => k' = k /\ key p = k /\ exists o1 o2, order = o1 ++ p :: o2 /\ forall q, In q o2 -> key q <> k
  | None => forall p, In p order -> key p <> k
  end.
Proof.
  intros key k order. assert (O : exists l, order = rev l) by (exists (rev order); symmetry; apply rev_involutive). destruct O as [l ->]. rewrite rev_involutive.
  induction l as [|p t IH]; cbn [map find fst]; [intros p []|]. destruct (cell_eqb (key p) k) eqn:E.
  - apply cell_eqb_eq in E. split; [exact E|]. split; [exact E|]. exists (rev t), []. cbn. split; [reflexivity|intros q []].
  - assert (N : key p <> k) by (intros X; apply cell_eqb_eq in X; congruence).
    destruct (find _ (map _ t)) as [[k' q]|].
    + destruct IH as (A & B & o1 & o2 & O & F). split; [exact A|]. split; [exact B|]. exists o1, (o2 ++ [p]). split.
      * cbn [rev]. rewrite O, <- app_assoc. reflexivity.
      * intros z J. apply in_app_or in J as [J|[<-|[]]]; auto.
    + intros z J. cbn [rev] in J. apply in_app_or in J as [J|[<-|[]]]; auto.
Qed.

(* ---- columns by name ---- *)
Lemma index_lt : forall n l i, index_of n l = Some i -> i < List.length l /\ exists f, nth_error l i = Some f /\ r_name f = n.
Proof.
  intros n. induction l as [|f t IH]; intros i; cbn [index_of]; [discriminate|]. destruct (String.eqb_spec (r_name f) n) as [E|E].
  - intros [= <-]. cbn. split; [lia|eauto].
  - destruct (index_of n t) as [k|]; [|discriminate]. intros [= <-]. destruct (IH k eq_refl) as [L (g & G & N)]. cbn. split; [lia|eauto].
Qed.
Lemma index_none : forall n l, index_of n l = None <-> forall f, In f l -> r_name f <> n.
Proof.
  intros n. induction l as [|f t IH]; cbn [index_of]; [split; [intros _ f []|reflexivity]|]. destruct (String.eqb_spec (r_name f) n) as [E|E].
  - split; [discriminate|]. intros H. exfalso. apply (H f); [left; reflexivity|exact E].
  - destruct (index_of n t) as [k|]; cbn [omap].
    + split; [discriminate|]. intros H. enough (Some k = None) by discriminate. apply IH. intros g J. apply H. right. exact J.
    + split; [|reflexivity]. intros _ g [<-|J]; [exact E|]. apply (proj1 IH eq_refl). exact J.
Qed.
Lemma keep_len : forall {T U} on l (xs : list T) (ys : list U), List.length xs = List.length l -> List.length ys = List.length l ->
  List.length (keep on l xs) = List.length (keep on l ys).
Proof.
  intros T U on. unfold keep. induction l as [|f t IH]; intros [|x xs] [|y ys]; cbn [List.length combine filter map]; try discriminate; auto.
  intros [= E] [= F]. cbn [fst]. destruct (negb (String.eqb (r_name f) on)); cbn [map List.length]; rewrite (IH xs ys E F); reflexivity.
Qed.
Lemma keep_self : forall on l, keep on l l = filter (fun f => negb (String.eqb (r_name f) on)) l.
Proof.
  intros on. unfold keep. induction l as [|f t IH]; cbn [combine filter map]; [reflexivity|]. cbn [fst]. destruct (negb (String.eqb (r_name f) on)); cbn [map snd]; rewrite IH; reflexivity.
Qed.
Lemma keep_value : forall on l (r : list cell) n, List.length r = List.length l -> n <> on -> value (filter (fun f => negb (String.eqb (r_name f) on)) l) (keep on l r) n = value l r n.
Proof.
  intros on l r n. unfold value, keep. revert r. induction l as [|f t IH]; intros [|x r]; cbn [List.length combine filter map index_of]; try discriminate; auto.
  intros [= E] N. specialize (IH r E N). cbn [fst]. destruct (String.eqb_spec (r_name f) on) as [F|F]; cbn [negb].
  - destruct (String.eqb_spec (r_name f) n) as [G|G]; [congruence|]. rewrite IH. destruct (index_of n t); reflexivity.
  - cbn [index_of map snd]. destruct (String.eqb_spec (r_name f) n) as [G|G]; [reflexivity|].
    destruct (index_of n t) as [i|]; cbn [omap]; destruct (index_of n (filter _ t)) as [k|]; cbn [omap nth]; exact IH.
Qed.
Lemma keep_gives : forall on right r, List.length r = List.length right ->
  gives on right (filter (fun f => negb (String.eqb (r_name f) on)) right) r (keep on right r).
Proof.
  intros on right r L. split.
  - rewrite <- keep_self. apply keep_len; auto.
  - intros f J. apply keep_value; [exact L|]. apply filter_In in J as [_ J]. apply negb_true_iff, String.eqb_neq in J. exact J.
Qed.
(* values are determined by the names *)
Lemma value_ext : forall out (v w : list cell), NoDup (map r_name out) -> List.length v = List.length out -> List.length w = List.length out ->
  (forall f, In f out -> value out v (r_name f) = value out w (r_name f)) -> v = w.
Proof.
  unfold value. induction out as [|f t IH]; intros [|x v] [|y w]; cbn [List.length]; try discriminate; auto.
  intros D [= L] [= M] H. inversion D as [|? ? N D']; subst. f_equal.
  - specialize (H f (or_introl eq_refl)). cbn [index_of] in H. rewrite String.eqb_refl in H. exact H.
  - apply IH; auto. intros g J. specialize (H g (or_intror J)). cbn [index_of] in H.
    destruct (String.eqb_spec (r_name f) (r_name g)) as [E|E]; [exfalso; apply N; rewrite E; apply in_map; exact J|].
    destruct (index_of (r_name g) t); cbn [omap nth] in H; exact H.
Qed.

Lemma try_new_ok : forall right bs on order j, try_new right bs on order = Ok j -> exists k, index_of on right = Some k /\ bs <> [] /\
  jo_fields j = filter (fun f => negb (String.eqb (r_name f) on)) right /\ jo_batches j = map (map (keep on right)) bs /\
  jo_index j = map (fun p => (value right (row_at bs p) on, p)) (rev order) /\ exists f, nth_error right k = Some f /\ jo_type j = a_type (r_attrs f).
Proof.
  intros right bs on order j H. unfold try_new in H. destruct (index_of on right) as [k|] eqn:K; [|discriminate]. destruct bs as [|b0 bs]; [discriminate|]. injection H as <-.
  exists k. split; [reflexivity|]. split; [discriminate|]. cbn [jo_fields jo_batches jo_index jo_type]. split; [apply keep_self|]. split; [reflexivity|]. split.
  - rewrite index_rev, app_nil_r. apply map_ext. intros p. unfold value. rewrite K. reflexivity.
  - destruct (index_lt _ _ _ K) as [L (f & F & _)]. exists f. split; [exact F|]. rewrite (nth_error_nth _ _ _ F). reflexivity.
Qed.
Lemma row_at_map : forall (g : list cell -> list cell) bs x p, fst p < List.length bs -> snd p < List.length (nth (fst p) bs []) ->
  row_at (map (map g) bs ++ [x]) p = g (row_at bs p).
Proof.
  intros g bs x [b r] L R. unfold row_at. cbn [fst snd] in *. rewrite app_nth1 by (rewrite map_length; exact L).
  rewrite (nth_indep (map (map g) bs) [] (map g [])) by (rewrite map_length; exact L). rewrite map_nth.
  rewrite (nth_indep _ [] (g [])) by (rewrite map_length; exact R). apply map_nth.
Qed.
Theorem joiner_spec : forall right bs on order j, right_ok right bs -> interleaving (slots bs) order -> try_new right bs on order = Ok j ->
  forall k, join_row on right bs (jo_fields j) k (joined j k).
Proof.
  intros right bs on order j [ND LR] I H k. destruct (try_new_ok _ _ _ _ _ H) as (kp & K & NE & F & B & X & _).
  assert (In_o := order_in bs order I). unfold joined, find_slot. rewrite X, B, F.
  pose proof (find_latest (fun p => value right (row_at bs p) on) k order) as FL. cbv beta in FL.
  destruct (find _ _) as [[k' p]|].
  - destruct FL as (_ & Kp & o1 & o2 & O & Ft). left. cbn [snd].
    assert (Jp : In p order) by (rewrite O; apply in_or_app; right; left; reflexivity). apply In_o in Jp as [L R].
    rewrite row_at_map by assumption. destruct p as [b i]. cbn [fst snd] in *.
    exists (nth b bs []), i, (row_at bs (b, i)). split; [apply nth_In; exact L|]. split; [|split; [exact Kp|split]].
    + unfold row_at. cbn. apply nth_error_nth'. exact R.
    + apply keep_gives. apply LR. apply right_row_at. exists (b, i). auto.
    + intros i' r' Lt E Q.
      assert (R' : i' < List.length (nth b bs [])) by (apply nth_error_Some; congruence).
      assert (Sl : exists l, In l (slots bs) /\ exists l1 l2, l = l1 ++ (b, i) :: l2 /\ In (b, i') l2).
      { exists (map (pair b) (seq 0 (List.length (nth b bs [])))). split.
        - unfold slots. apply in_map_iff. exists (b, nth b bs []). split; [reflexivity|].
          assert (C : nth_error (combine (seq 0 (List.length bs)) bs) b = Some (b, nth b bs [])).
          { clear -L. assert (G : forall (bs : list (list (list cell))) s b, b < List.length bs -> nth_error (combine (seq s (List.length bs)) bs) b = Some (s + b, nth b bs [])).
            { induction bs0 as [|x t IH]; intros s b0 Lb; cbn in Lb; [lia|]. destruct b0 as [|b0]; cbn [List.length seq combine nth_error nth]; [f_equal; f_equal; lia|].
              rewrite IH by lia. f_equal. f_equal. lia. }
            rewrite G by exact L. reflexivity. }
          eapply nth_error_In. exact C.
        - exists (map (pair b) (seq 0 i)), (map (pair b) (seq (S i) (List.length (nth b bs []) - S i))). split.
          + rewrite <- (map_cons (pair b) i), <- map_app. f_equal.
            replace (List.length (nth b bs [])) with (i + S (List.length (nth b bs []) - S i)) at 1 by lia. rewrite seq_app. reflexivity.
          + apply in_map, in_seq. lia. }
      destruct Sl as (l & Jl & l1 & l2 & El & Ji). destruct (il_order _ _ I l (b, i) l1 l2 Jl El) as (q1 & q2 & O' & Inc).
      assert (q2 = o2) as ->.
      { assert (NDo : NoDup order) by (eapply Permutation_NoDup; [apply il_perm; exact I|apply slots_nodup]). rewrite O in O', NDo. clear -O' NDo.
        revert q1 O' NDo. induction o1 as [|y o1 IH]; intros [|z q1] E N; cbn in E.
        - congruence.
        - exfalso. injection E as E1 E2. rewrite E2 in N. cbn in N. inversion N as [|? ? Nn _]. apply Nn. apply in_or_app. right. left. reflexivity.
        - exfalso. injection E as E1 E2. rewrite E1 in N. cbn in N. inversion N as [|? ? Nn _]. apply Nn. apply in_or_app. right. left. reflexivity.
        - injection E as E1 E2. cbn in N. inversion N as [|? ? _ N']. eapply IH; eassumption. }
      apply (Ft (b, i')); [apply Inc; exact Ji|]. unfold row_at. cbn. rewrite (nth_error_nth _ _ _ E). exact Q.
  - right. split.
    + intros r J. apply right_row_at in J as (p & Hp & <-). apply FL. apply In_o. exact Hp.
    + unfold row_at. cbn [fst snd]. rewrite app_nth2 by lia. rewrite Nat.sub_diag. reflexivity.
Qed.
(* with unique keys there is only one answer *)
Theorem join_unique : forall right bs on out, right_ok right bs -> unique_keys on right bs -> added on right out ->
  forall k v w, join_row on right bs out k v -> join_row on right bs out k w -> v = w.
Proof.
  intros right bs on out [ND LR] U Ad k v w V W.
  assert (NDo : NoDup (map r_name out)).
  { unfold added in Ad. subst out. clear -ND. induction right as [|f t IH]; cbn [filter map]; [constructor|]. inversion ND as [|? ? N D]; subst.
    destruct (negb _); cbn [map]; [constructor|]; auto. intros J. apply N. apply in_map_iff in J as (g & E & J). apply filter_In in J as [J _]. rewrite <- E. apply in_map. exact J. }
  destruct V as [(b & i & r & Jb & E & K & [Lv Gv] & _)|[Nv ->]]; destruct W as [(b' & i' & r' & Jb' & E' & K' & [Lw Gw] & _)|[Nw ->]].
  - apply nth_error_In in E. apply nth_error_In in E'.
    assert (r = r') as ->.
    { assert (J : In r (List.concat bs)) by (apply in_concat; eauto). assert (J' : In r' (List.concat bs)) by (apply in_concat; eauto).
      unfold unique_keys in U. rewrite <- K' in K. clear -U J J' K. induction (List.concat bs) as [|x t IH]; [destruct J|]. cbn [map] in U. inversion U as [|? ? N D]; subst.
      destruct J as [->|J], J' as [->|J']; auto.
      - exfalso. apply N. rewrite K. apply (in_map (fun r => value right r on)). exact J'.
      - exfalso. apply N. rewrite <- K. apply (in_map (fun r => value right r on)). exact J. }
    apply (value_ext out); auto. intros f J. rewrite Gv, Gw by exact J. reflexivity.
  - exfalso. apply (Nw r); [|exact K]. exists b. split; [exact Jb|]. eapply nth_error_In; exact E.
  - exfalso. apply (Nv r'); [|exact K']. exists b'. split; [exact Jb'|]. eapply nth_error_In; exact E'.
  - reflexivity.
Qed.
