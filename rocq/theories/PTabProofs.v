(* Proofs about PTabModel. *)
From Coq Require Import List ZArith Bool Lia Sorted.
From Verif Require Import PTabModel.
Import ListNotations.
Local Open Scope Z_scope.

Lemma zmin_le : forall l x, In x l -> zmin l <= x.
Proof.
  intros [|y r] x H; [destruct H|]. cbn [zmin]. induction r as [|z r IH]; cbn [fold_right].
  - destruct H as [<-|[]]; lia.
  - destruct H as [<-|[<-|H]]; [specialize (IH (or_introl eq_refl))|lia|specialize (IH (or_intror H))]; lia.
Qed.
Lemma zmax_ge : forall l x, In x l -> x <= zmax l.
Proof.
  intros [|y r] x H; [destruct H|]. cbn [zmax]. induction r as [|z r IH]; cbn [fold_right].
  - destruct H as [<-|[]]; lia.
  - destruct H as [<-|[<-|H]]; [specialize (IH (or_introl eq_refl))|lia|specialize (IH (or_intror H))]; lia.
Qed.
Lemma zmax_in : forall l, l <> [] -> In (zmax l) l.
Proof.
  intros [|y r] H; [contradiction|]. clear H. cbn [zmax]. induction r as [|z r IH]; cbn [fold_right]; [now left|].
  destruct (Z.max_spec z (fold_right Z.max y r)) as [[_ ->]|[_ ->]]; [|right; now left]. destruct IH as [IH|IH]; [now left|right; now right].
Qed.

Lemma get_none : forall p f b, (forall i, ~ In ((f, b), i) p) -> get p f b = None.
Proof.
  intros p f b H. unfold get. destruct (find _ p) as [[[f' b'] i]|] eqn:E; [|reflexivity].
  apply find_some in E. destruct E as [E1 E2]. cbn in E2. apply andb_prop in E2. destruct E2 as [E2 E3].
  apply Z.eqb_eq in E2. apply Nat.eqb_eq in E3. subst. now apply H in E1.
Qed.
Lemma get_in : forall p f b i, get p f b = Some i -> In ((f, b), i) p.
Proof.
  intros p f b i H. unfold get in H. destruct (find _ p) as [[[f' b'] j]|] eqn:E; [|discriminate]. cbn in H. injection H as ->.
  apply find_some in E. destruct E as [E1 E2]. cbn in E2. apply andb_prop in E2. destruct E2 as [E2 E3].
  apply Z.eqb_eq in E2. apply Nat.eqb_eq in E3. now subst.
Qed.
Lemma in_get : forall p f b i, In ((f, b), i) p -> get p f b <> None.
Proof.
  intros p f b i H E. unfold get in E. destruct (find (fun x => (fst (fst x) =? f) && Nat.eqb (snd (fst x)) b) p) as [y|] eqn:Q; [discriminate|].
  apply (find_none _ _ Q) in H. cbn in H. rewrite Z.eqb_refl, Nat.eqb_refl in H. discriminate.
Qed.

Lemma batches_gt : forall p f b i, In ((f, b), i) p -> (b < batches p)%nat.
Proof.
  intros p f b i H. unfold batches. enough (b <= fold_right Nat.max 0 (map (fun x => snd (fst x)) p))%nat by lia.
  induction p as [|x p IH]; [destruct H|]. cbn [map fold_right]. destruct H as [->|H]; [cbn [fst snd]; lia|specialize (IH H); lia].
Qed.
Lemma batches_in : forall p, p <> [] -> exists f i, In ((f, (batches p - 1)%nat), i) p.
Proof.
  intros p N. unfold batches. replace (S (fold_right Nat.max 0%nat (map (fun x => snd (fst x)) p)) - 1)%nat with (fold_right Nat.max 0%nat (map (fun x : Z * nat * (Z * Z) => snd (fst x)) p)) by lia.
  induction p as [|[[f b] i] p IH]; [contradiction|]. cbn [map fold_right fst snd].
  destruct p as [|y p]; [exists f, i; cbn; rewrite Nat.max_0_r; now left|].
  destruct (IH ltac:(discriminate)) as (f' & i' & H). destruct (Nat.max_spec b (fold_right Nat.max 0%nat (map (fun x => snd (fst x)) (y :: p)))) as [[_ ->]|[_ ->]].
  - exists f', i'. now right.
  - exists f, i. now left.
Qed.

Lemma keys_in : forall p f b i, In ((f, b), i) p -> In f (keys p).
Proof. intros p f b i H. exact (in_map (fun x : (Z * nat) * (Z * Z) => fst (fst x)) p _ H). Qed.

(* the cells of the table, row by row *)
Lemma cell_length : forall p f b, length (cell p f b) = 2%nat.
Proof. intros p f b. unfold cell. destruct (get p f b) as [[]|]; reflexivity. Qed.
Lemma flat_length : forall A (g : A -> list Z) n l, (forall x, length (g x) = n) -> length (flat_map g l) = (length l * n)%nat.
Proof. intros A g n l H. induction l as [|x l IH]; [reflexivity|]. cbn [flat_map length]. rewrite app_length, H, IH. lia. Qed.
Lemma flat_nth : forall A (g : A -> list Z) n l rest k x j, (forall x, length (g x) = n) -> nth_error l k = Some x -> (j < n)%nat ->
  nth (k * n + j) (flat_map g l ++ rest) 0 = nth j (g x) 0.
Proof.
  intros A g n l rest k x j H. revert k. induction l as [|y l IH]; intros k E L; [destruct k; discriminate|]. cbn [flat_map]. rewrite <- app_assoc.
  destruct k as [|k]; cbn [nth_error] in E.
  - injection E as ->. cbn [Nat.mul Nat.add]. apply app_nth1. rewrite H. exact L.
  - rewrite app_nth2 by (rewrite H; lia). rewrite H. replace (S k * n + j - n)%nat with (k * n + j)%nat by lia. apply IH; assumption.
Qed.

Lemma ids_length : forall lo hi, length (ids lo hi) = Z.to_nat (hi - lo + 1).
Proof. intros. unfold ids. now rewrite map_length, seq_length. Qed.
Lemma ids_nth : forall lo hi k, (k < Z.to_nat (hi - lo + 1))%nat -> nth_error (ids lo hi) k = Some (lo + Z.of_nat k).
Proof.
  intros lo hi k H. unfold ids. rewrite nth_error_map.
  assert (E : nth_error (seq 0 (Z.to_nat (hi - lo + 1))) k = Some k); [|now rewrite E].
  rewrite (nth_error_nth' _ 0%nat) by (now rewrite seq_length). f_equal. now rewrite seq_nth.
Qed.

Lemma load_get : forall file lo hi nb q f b, load file lo hi nb = Some q ->
  get q f b = if (lo <=? f) && (f <=? hi) && (b <? nb)%nat
              then Some (nth ((Z.to_nat (f - lo) * nb + b) * 2) file 0, nth ((Z.to_nat (f - lo) * nb + b) * 2 + 1) file 0) else None.
Proof.
  intros file lo hi nb q f b H. unfold load in H. destruct (hi <? lo) eqn:E0; [discriminate|]. apply Z.ltb_ge in E0.
  rewrite ids_length in H. set (n := Z.to_nat (hi - lo + 1)) in *.
  destruct (length file <? n * nb * 2)%nat; [discriminate|]. injection H as <-.
  set (q := flat_map _ _).
  assert (I : forall f b i, In ((f, b), i) q <-> (lo <= f <= hi /\ (b < nb)%nat /\
     i = (nth ((Z.to_nat (f - lo) * nb + b) * 2) file 0, nth ((Z.to_nat (f - lo) * nb + b) * 2 + 1) file 0))).
  { intros f' b' i. unfold q. rewrite in_flat_map. split.
    - intros (k & K1 & K2). apply in_seq in K1. apply in_map_iff in K2. destruct K2 as (b2 & K2 & K3). apply in_seq in K3.
      injection K2 as <- <- <-. replace (Z.to_nat (lo + Z.of_nat k - lo)) with k by lia. repeat split; try lia.
    - intros (F & B & ->). exists (Z.to_nat (f' - lo)). split; [apply in_seq; lia|]. apply in_map_iff. exists b'. split; [|apply in_seq; lia].
      do 2 f_equal. lia. }
  destruct ((lo <=? f) && (f <=? hi) && (b <? nb)%nat) eqn:C.
  - apply andb_prop in C. destruct C as [C C3]. apply andb_prop in C. destruct C as [C1 C2]. apply Z.leb_le in C1, C2. apply Nat.ltb_lt in C3.
    destruct (get q f b) as [i|] eqn:G.
    + apply get_in in G. apply I in G. now destruct G as (_ & _ & ->).
    + exfalso. eapply (in_get q f b); [apply I; repeat split; try assumption|exact G].
  - apply get_none. intros i G. apply I in G. destruct G as (G1 & G2 & _).
    assert (Q : (lo <=? f) && (f <=? hi) && (b <? nb)%nat = true); [|congruence].
    apply andb_true_intro. split; [apply andb_true_intro; split; apply Z.leb_le; lia|now apply Nat.ltb_lt].
Qed.

Lemma write_is : forall p lo t, write p lo = Some t -> t = flat_map (fun f => flat_map (cell p f) (seq 0 (batches p))) (ids lo (zmax (keys p))).
Proof.
  intros p lo t W. unfold write in W. destruct p as [|x0 p0]; [discriminate|]. destruct (zmin (keys (x0 :: p0)) <? lo); [discriminate|].
  injection W as <-. reflexivity.
Qed.
Lemma write_cell : forall p lo t rest f b, write p lo = Some t -> lo <= f <= zmax (keys p) -> (b < batches p)%nat ->
  let i := ((Z.to_nat (f - lo) * batches p + b) * 2)%nat in
  (nth i (t ++ rest) 0, nth (i + 1) (t ++ rest) 0) = match get p f b with Some x => x | None => (0, 0) end.
Proof.
  intros p lo t rest f b W F B i.
  apply write_is in W.
  subst t.
  set (row := fun f => flat_map (cell p f) (seq 0 (batches p))).
  assert (RL : forall f, length (row f) = (batches p * 2)%nat) by (intros g; unfold row; rewrite (flat_length _ _ 2); [now rewrite seq_length|apply cell_length]).
  assert (K : forall j, (j < 2)%nat -> nth (i + j) (flat_map row (ids lo (zmax (keys p))) ++ rest) 0 = nth j (cell p f b) 0).
  { intros j J. unfold i. replace ((Z.to_nat (f - lo) * batches p + b) * 2 + j)%nat with (Z.to_nat (f - lo) * (batches p * 2) + (b * 2 + j))%nat by lia.
    rewrite (flat_nth Z row (batches p * 2)%nat _ rest _ f); [|exact RL| |lia].
    - unfold row. rewrite <- (app_nil_r (flat_map (cell p f) (seq 0 (batches p)))). apply (flat_nth nat (cell p f) 2%nat _ [] b b); [apply cell_length| |exact J].
      rewrite (nth_error_nth' _ 0%nat) by (rewrite seq_length; lia). f_equal. rewrite seq_nth; lia.
    - rewrite ids_nth by lia. f_equal. lia. }
  assert (K0 := K 0%nat ltac:(lia)). rewrite Nat.add_0_r in K0.
  rewrite K0, (K 1%nat) by lia. unfold cell. destruct (get p f b) as [[]|]; reflexivity.
Qed.

Theorem roundtrip : forall p lo t rest hi nb,
  write p lo = Some t ->
  (forall f b, get p f b <> None -> (b < nb)%nat) -> (exists f, get p f (nb - 1) <> None) -> (0 < nb)%nat ->
  lo <= hi -> (exists f b, hi <= f /\ get p f b <> None) ->
  exists q, load (t ++ rest) lo hi nb = Some q /\
    forall f b, get q f b = if (lo <=? f) && (f <=? hi) && (b <? nb)%nat then Some (match get p f b with Some x => x | None => (0, 0) end) else None.
Proof.
  intros p lo t rest hi nb W B1 (f1 & B2) B3 H (f2 & b2 & H2 & G2).
  assert (PN : p <> []) by (intros ->; discriminate).
  assert (EB : nb = batches p).
  { destruct (batches_in p PN) as (f & i & I). apply in_get in I. apply B1 in I.
    destruct (get p f1 (nb - 1)) as [j|] eqn:E; [|now contradict B2]. apply get_in in E. apply batches_gt in E. lia. }
  assert (HM : hi <= zmax (keys p)).
  { destruct (get p f2 b2) as [j|] eqn:E; [|now contradict G2]. apply get_in in E.
    apply keys_in in E. apply zmax_ge in E. lia. }
  assert (LT : length t = (Z.to_nat (zmax (keys p) - lo + 1) * (batches p * 2))%nat).
  { rewrite (write_is p lo t W). rewrite (flat_length _ _ (batches p * 2)); [now rewrite ids_length|].
    intros f. rewrite (flat_length _ _ 2); [now rewrite seq_length|apply cell_length]. }
  destruct (load (t ++ rest) lo hi nb) as [q|] eqn:L.
  - exists q. split; [reflexivity|]. intros f b. rewrite (load_get _ _ _ _ _ _ _ L).
    destruct ((lo <=? f) && (f <=? hi) && (b <? nb)%nat) eqn:C; [|reflexivity].
    apply andb_prop in C. destruct C as [C C3]. apply andb_prop in C. destruct C as [C1 C2]. apply Z.leb_le in C1, C2. apply Nat.ltb_lt in C3.
    f_equal. rewrite EB in *. apply (write_cell p lo t rest f b W); lia.
  - exfalso. unfold load in L. destruct (Z.ltb_spec hi lo); [lia|]. rewrite ids_length, app_length, LT in L. rewrite EB in L.
    destruct (Nat.ltb_spec (Z.to_nat (zmax (keys p) - lo + 1) * (batches p * 2) + length rest) (Z.to_nat (hi - lo + 1) * batches p * 2)); [|discriminate].
    assert (Z.to_nat (hi - lo + 1) <= Z.to_nat (zmax (keys p) - lo + 1))%nat by lia. nia.
Qed.

(* a data file of which some fields were written anew elsewhere, the first not among them *)
Theorem open_right : forall p fields updated t rest nb q,
  StronglySorted Z.lt fields -> (forall f, In f fields -> 0 <= f) ->
  write p (hd 0 fields) = Some t ->
  (forall f b, get p f b <> None -> In f fields /\ (b < nb)%nat) -> (exists f, get p f (nb - 1) <> None) -> (0 < nb)%nat ->
  ~ In (hd 0 fields) updated ->
  open_file (t ++ rest) (tombstone updated fields) nb = Some q ->
  forall f b i, In f fields -> ~ In f updated -> get p f b = Some i -> get q f b = Some i.
Proof.
  intros p fields updated t rest nb q S P W B1 (f1 & B2) B3 U O f b i Hf Nf G.
  destruct fields as [|first fs]; [destruct Hf|]. cbn [hd] in *.
  assert (EX : forall g, existsb (Z.eqb g) updated = true <-> In g updated).
  { intros g. rewrite existsb_exists. split; [intros (y & Y & E); apply Z.eqb_eq in E; now subst|intros Y; exists g; split; [exact Y|apply Z.eqb_refl]]. }
  assert (T : forall g, ~ In g updated -> (if existsb (Z.eqb g) updated then -2 else g) = g).
  { intros g N. destruct (existsb (Z.eqb g) updated) eqn:E; [now apply EX in E|reflexivity]. }
  unfold open_file, tombstone in O. cbn [map] in O. rewrite (T first U) in O.
  set (fields2 := first :: map (fun f0 => if existsb (Z.eqb f0) updated then -2 else f0) fs) in *.
  assert (PN : p <> []) by (intros ->; discriminate).
  assert (EB : nb = batches p).
  { destruct (batches_in p PN) as (g & j & I). apply in_get in I. apply B1 in I.
    destruct (get p f1 (nb - 1)) as [k|] eqn:E; [|now contradict B2]. apply get_in in E. apply batches_gt in E. lia. }
  assert (F1 : first <= f).
  { inversion S as [|? ? S1 S2]; subst. destruct Hf as [->|Hf]; [lia|]. rewrite Forall_forall in S2. specialize (S2 f Hf). lia. }
  assert (F2 : f <= zmax fields2).
  { apply zmax_ge. unfold fields2. destruct Hf as [->|Hf]; [now left|]. right. apply in_map_iff. exists f. split; [now apply T|exact Hf]. }
  rewrite (load_get _ _ _ _ _ _ _ O).
  assert (GN : get p f b <> None) by congruence. destruct (B1 f b GN) as [_ Bb].
  assert (C : (first <=? f) && (f <=? zmax fields2) && (b <? nb)%nat = true).
  { apply andb_true_intro. split; [apply andb_true_intro; split; apply Z.leb_le; lia|now apply Nat.ltb_lt]. }
  rewrite C. f_equal. subst nb.
  assert (K := write_cell p first t rest f b W). cbn zeta in K. rewrite K; [now rewrite G| |exact Bb].
  split; [exact F1|]. apply zmax_ge. apply get_in in G. exact (keys_in _ _ _ _ G).
Qed.

Lemma sorted_last : forall l x d, StronglySorted Z.lt l -> In x l -> x <= last l d.
Proof.
  induction l as [|y l IH]; intros x d S H; [destruct H|]. inversion S as [|? ? S1 S2]; subst. destruct l as [|z l].
  - destruct H as [<-|[]]. cbn. lia.
  - change (last (y :: z :: l) d) with (last (z :: l) d). destruct H as [<-|H]; [|now apply IH].
    assert (K := IH z d S1 (or_introl eq_refl)). inversion S2; subst. lia.
Qed.
(* such a data file can be opened, if its last field has a page *)
Theorem opens : forall p fields updated t rest nb,
  StronglySorted Z.lt fields -> (forall f, In f fields -> 0 <= f) ->
  write p (hd 0 fields) = Some t ->
  (forall f b, get p f b <> None -> In f fields /\ (b < nb)%nat) -> (exists f, get p f (nb - 1) <> None) -> (0 < nb)%nat ->
  ~ In (hd 0 fields) updated -> (exists b, get p (last fields 0) b <> None) ->
  exists q, open_file (t ++ rest) (tombstone updated fields) nb = Some q.
Proof.
  intros p fields updated t rest nb S P W B1 B2 B3 U (b & L).
  destruct fields as [|first fs]; [destruct (B1 _ _ L) as [[] _]|]. cbn [hd] in *.
  assert (T : (if existsb (Z.eqb first) updated then -2 else first) = first).
  { destruct (existsb (Z.eqb first) updated) eqn:E; [|reflexivity]. apply existsb_exists in E. destruct E as (y & Y & E). apply Z.eqb_eq in E. now subst y. }
  unfold open_file, tombstone. cbn [map]. rewrite T.
  set (fields2 := first :: map (fun f0 => if existsb (Z.eqb f0) updated then -2 else f0) fs) in *.
  assert (LF : forall x, In x (first :: fs) -> x <= last (first :: fs) 0) by (intros x; now apply sorted_last).
  assert (M : zmax fields2 <= last (first :: fs) 0).
  { assert (I : In (zmax fields2) fields2) by (apply zmax_in; discriminate). destruct I as [I|I].
    - rewrite <- I. apply LF. now left.
    - apply in_map_iff in I. destruct I as (x & E & X). rewrite <- E. assert (K := LF x (or_intror X)).
      assert (K2 := P x (or_intror X)). destruct (existsb (Z.eqb x) updated); lia. }
  destruct (roundtrip p first t rest (zmax fields2) nb W) as (q & Q & _); [|exact B2|exact B3| | |now exists q].
  - intros f c G. now apply B1 in G.
  - apply zmax_ge. now left.
  - exists (last (first :: fs) 0), b. split; [exact M|exact L].
Qed.

(* a table has what was set last *)
Theorem set_get : forall p f b i g c,
  get [] g c = None /\ get (set p f b i) f b = Some i /\ (g <> f \/ c <> b -> get (set p f b i) g c = get p g c).
Proof.
  intros p f b i g c. split; [reflexivity|]. unfold get, set. cbn [find fst snd]. rewrite Z.eqb_refl, Nat.eqb_refl. split; [reflexivity|].
  intros H. destruct (Z.eqb_spec f g); [|reflexivity]. destruct (Nat.eqb_spec b c); [|reflexivity]. lia.
Qed.
