(* Proofs about the I/O scheduler (C54, C55). *)
From Coq Require Import List Arith ZArith Lia Bool Permutation Sorted.
From Verif Require Import Lib SchedModel.
Import ListNotations.

(* ---- C54 ---- *)
(* the bytes of a range *)
Definition bytes_of {B} (file : list B) (r : range) : list B := firstn (snd r - fst r) (skipn (fst r) file).
Definition by_start (l : list range) : Prop := StronglySorted (fun a b => fst a <= fst b) l.

Definition within (g m : range) : Prop := fst g <= fst m /\ fst m <= snd m /\ snd m <= snd g.
Fixpoint chain (bs : nat) (grp : list (range * list range)) : Prop :=
  match grp with
  | [] => True
  | (g, ms) :: t => fst g <= snd g /\ Forall (within g) ms /\ Forall (fun h => snd g + bs < fst (fst h)) t /\ chain bs t
  end.
Lemma coalesce_groups : forall bs rest curr, fst curr <= snd curr -> Forall (fun m => fst m <= snd m) rest -> Forall (fun m => fst curr <= fst m) rest -> by_start rest ->
  exists e ms tail, coalesce bs curr rest = (fst curr, e) :: map fst tail /\ rest = ms ++ concat (map snd tail) /\
    snd curr <= e /\ chain bs (((fst curr, e), ms) :: tail) /\ (e = snd curr \/ exists m, In m rest /\ snd m = e) /\
    (forall g, In g (map fst tail) -> exists m, In m rest /\ snd m = snd g) /\ (forall h, In h tail -> fst curr <= fst (fst h)).
Proof.
  intros bs rest. induction rest as [|r t IH]; intros curr V VR LB SO.
  - exists (snd curr), [], []. destruct curr as [a b]; cbn in *. intuition (auto; try lia).
  - inversion VR; subst. inversion LB; subst. inversion SO; subst. cbn [coalesce]. unfold is_close_together. destruct (Nat.leb_spec (fst r) (snd curr + bs)).
    + destruct (IH (fst curr, Nat.max (snd curr) (snd r))) as [e [ms [tail [E [S [L [C [X [G N]]]]]]]]]; cbn [fst snd] in *; auto; [lia|].
      exists e, (r :: ms), tail. split; [exact E|]. split; [cbn; rewrite S at 1; reflexivity|]. split; [lia|]. split.
      * cbn in C |- *. destruct C as [C1 [C2 C3]]. split; [exact C1|]. split; [|exact C3]. constructor; [|exact C2]. unfold within; cbn. lia.
      * split; [|split; [|exact N]].
        { destruct X as [X|[m [I X]]]; [|right; exists m; split; [right; exact I|exact X]].
          destruct (Nat.max_dec (snd curr) (snd r)) as [D|D]; rewrite D in X; [left; exact X|right; exists r; split; [left; reflexivity|auto]]. }
        { intros g I. destruct (G g I) as [m [Im Sm]]. exists m. split; [right; exact Im|exact Sm]. }
    + destruct (IH r) as [e [ms [tail [E [S [L [C [X [G N]]]]]]]]]; auto.
      exists (snd curr), [], ((fst r, e, r :: ms) :: tail). destruct curr as [a b]; cbn [fst snd] in *. split; [rewrite E; reflexivity|].
      split; [cbn; rewrite S at 1; reflexivity|]. split; [lia|]. split.
      * cbn [chain]. cbn [fst snd]. split; [exact V|]. split; [constructor|]. split; [|cbn [chain fst snd] in C; destruct C as [C1 [C2 C3]]; split; [exact C1|]; split; [|exact C3]; constructor; [|exact C2]; unfold within; cbn; lia].
        constructor; cbn; [lia|]. rewrite Forall_forall. intros h I. specialize (N h I). lia.
      * split; [left; reflexivity|]. split.
        { intros g [I|I]; [|destruct (G g I) as [m [Im Sm]]; exists m; split; [right; exact Im|exact Sm]]. subst g. cbn.
          destruct X as [X|[m [I X]]]; [exists r; split; [left; reflexivity|auto]|exists m; split; [right; exact I|auto]]. }
        { intros h [I|I]; [subst h; cbn; lia|specialize (N h I); lia]. }
Qed.
Lemma no_overlap_done : forall {B} fuel (us : list (range * list B)) o os, (forall u, In u us -> snd o <= fst (fst u)) -> reslice fuel us (o :: os) = Done [].
Proof.
  intros B fuel. induction fuel as [|k IH]; intros us o os H; [reflexivity|]. destruct us as [|[u buf] us]; [reflexivity|]. cbn [reslice].
  unfold is_overlapping. destruct (Nat.ltb_spec (fst u) (snd o)); [specialize (H (u, buf) (or_introl eq_refl)); cbn in H; lia|]. cbn [andb].
  apply IH. intros v I. apply H. right. exact I.
Qed.
Lemma slice_bytes : forall {B} (file : list B) g o, within g o -> snd g <= length file -> slice (bytes_of file g) o (fst g) = Some (bytes_of file o).
Proof.
  intros B file g o [W1 [W2 W3]] L. unfold slice, bytes_of. rewrite firstn_length, skipn_length.
  destruct (Nat.leb_spec (fst g) (fst o)); [|lia]. destruct (Nat.leb_spec (fst g) (snd o)); [|lia]. destruct (Nat.leb_spec (fst o) (snd o)); [|lia].
  destruct (Nat.leb_spec (snd o - fst g) (Nat.min (snd g - fst g) (length file - fst g))); [|lia]. cbn [andb]. f_equal.
  rewrite <- firstn_skipn_comm || rewrite skipn_firstn_comm. rewrite firstn_firstn. rewrite skipn_skipn'. f_equal; [lia|]. f_equal. lia.
Qed.
Definition stops (q : list range) : Prop := match q with [] => True | o :: _ => fst o = snd o end.
Lemma reslice_spec : forall {B} (file : list B) bs fuel grp, chain bs grp -> (forall h, In h grp -> snd (fst h) <= length file) ->
  length grp + length (concat (map snd grp)) <= fuel ->
  exists p q, concat (map snd grp) = p ++ q /\ reslice fuel (map (fun h => (fst h, bytes_of file (fst h))) grp) (concat (map snd grp)) = Done (map (bytes_of file) p) /\ stops q.
Proof.
  intros B file bs fuel. induction fuel as [|k IH]; intros grp C L F.
  - destruct grp; [|cbn in F; lia]. exists [], []. cbn. auto.
  - destruct grp as [|[g ms] t]; [exists [], []; cbn; auto|]. destruct ms as [|o os].
    + cbn [map snd concat app fst]. destruct (concat (map snd t)) as [|o os] eqn:E.
      { exists [], []. cbn. auto. }
      cbn [reslice]. destruct C as [C1 [_ [C2 C3]]].
      assert (NO : is_overlapping g o = false).
      { assert (I : In o (concat (map snd t))) by (rewrite E; left; reflexivity). apply in_concat in I as [ms [I J]]. apply in_map_iff in I as [h [<- I]].
        rewrite Forall_forall in C2. specialize (C2 h I).
        assert (W : within (fst h) o).
        { clear - C3 I J. induction t as [|[g' ms'] t IH]; [destruct I|]. cbn in C3. destruct C3 as [_ [F [_ C3]]]. destruct I as [<-|I]; [|auto].
          cbn in J. rewrite Forall_forall in F. apply F. exact J. }
        destruct W as [W _]. unfold is_overlapping. apply andb_false_iff. right. apply Nat.ltb_ge. lia. }
      rewrite NO, <- E. apply IH; [exact C3|intros h I; apply L; right; exact I|]. cbn in F. rewrite E. cbn in F |- *. rewrite E in F. cbn in F. lia.
    + cbn [map snd concat app fst reslice]. destruct C as [C1 [C2 [C3 C4]]]. inversion C2 as [|? ? W C2']; subst. destruct (is_overlapping g o) eqn:O.
      * rewrite slice_bytes by (auto; apply (L (g, o :: os)); left; reflexivity).
        destruct (IH ((g, os) :: t)) as [p [q [E [R S]]]].
        { cbn. auto. }
        { intros h [<-|I]; [apply (L (g, o :: os)); left; reflexivity|apply L; right; exact I]. }
        { cbn in F |- *. lia. }
        cbn [map snd concat fst] in E, R. rewrite R. exists (o :: p), q. split; [cbn; f_equal; exact E|]. split; [reflexivity|exact S].
      * exists [], (o :: os ++ concat (map snd t)). split; [reflexivity|]. split.
        { apply no_overlap_done. intros u I. apply in_map_iff in I as [h [<- I]]. cbn. rewrite Forall_forall in C3. specialize (C3 h I). destruct W. lia. }
        { cbn. unfold is_overlapping in O. apply andb_false_iff in O. destruct W as [W1 [W2 W3]]. rewrite !Nat.ltb_ge in O. lia. }
Qed.
Lemma reads_ok : forall {B} (file : list B) l, Forall (fun g => fst g <= snd g /\ snd g <= length file) l -> sequence_opt (map (read file) l) = Some (map (bytes_of file) l).
Proof.
  intros B file l. induction l as [|g l IH]; intros F; [reflexivity|]. inversion F as [|? ? [H1 H2] F']; subst. cbn.
  assert (R : read file g = Some (bytes_of file g)).
  { unfold read, bytes_of. destruct (Nat.eqb_spec (fst g) (snd g)) as [E|E]; [rewrite E, Nat.sub_diag; reflexivity|].
    destruct (Nat.ltb_spec (fst g) (snd g)); [|lia]. destruct (Nat.leb_spec (snd g) (length file)); [reflexivity|lia]. }
  rewrite R, IH by assumption. reflexivity.
Qed.
Lemma chain_valid : forall bs grp, chain bs grp -> Forall (fun h => fst (fst h) <= snd (fst h)) grp.
Proof. intros bs grp. induction grp as [|[g ms] t IH]; intros C; constructor; cbn in *; [tauto|]. apply IH. tauto. Qed.
Lemma combine_map : forall {A B} (f : A -> B) l, combine l (map f l) = map (fun x => (x, f x)) l.
Proof. induction l; cbn; f_equal; auto. Qed.
Lemma request_groups : forall bs request, Forall (fun m => fst m <= snd m) request -> by_start request ->
  exists grp, updated_requests bs request = map fst grp /\ concat (map snd grp) = request /\ chain bs grp /\
    (forall g, In g (map fst grp) -> exists m, In m request /\ snd m = snd g).
Proof.
  intros bs [|r t] V SO; [exists []; cbn; intuition|]. inversion V; subst. inversion SO; subst. cbn [updated_requests].
  destruct (coalesce_groups bs t r) as [e [ms [tail [E [S [L [C [X [G N]]]]]]]]]; auto.
  exists (((fst r, e), r :: ms) :: tail). split; [cbn; exact E|]. split; [cbn; f_equal; auto|]. split.
  - cbn in C |- *. destruct C as [C1 [C2 C3]]. split; [exact C1|]. split; [|exact C3]. constructor; [|exact C2]. unfold within; cbn. lia.
  - intros g [<-|I]; cbn.
    + destruct X as [->|[m [I X]]]; [exists r; auto|exists m; auto].
    + destruct (G g I) as [m [Im Sm]]. exists m. auto.
Qed.
(* the result is always a prefix of the correct answers, cut off (if at all) at
   an empty range *)
Lemma submit_request_prefix : forall {B} (file : list B) bs request, by_start request ->
  Forall (fun r => fst r <= snd r /\ snd r <= length file) request ->
  exists p q, request = p ++ q /\ submit_request file bs request = Done (map (bytes_of file) p) /\ stops q.
Proof.
  intros B file bs request SO V. destruct (request_groups bs request) as [grp [E [S [C G]]]]; [eapply Forall_impl; [|exact V]; cbn; tauto|exact SO|].
  unfold submit_request. rewrite E. rewrite Forall_forall in V.
  assert (LG : forall h, In h grp -> snd (fst h) <= length file).
  { intros h I. destruct (G (fst h)) as [m [Im Sm]]; [apply in_map; exact I|]. rewrite <- Sm. apply V. exact Im. }
  rewrite reads_ok.
  - rewrite combine_map, map_map. destruct (reslice_spec file bs (length (map fst grp) + length (concat (map snd grp))) grp C LG) as [p [q [E1 [R T]]]].
    + rewrite map_length. lia.
    + exists p, q. rewrite S in E1, R. auto.
  - rewrite Forall_forall. intros g I. apply in_map_iff in I as [h [<- I]]. split; [|apply LG; exact I].
    pose proof (chain_valid _ _ C) as CV. rewrite Forall_forall in CV. apply CV. exact I.
Qed.
(* non-empty ranges in order: exactly the requested bytes *)
Lemma submit_request_exact : forall {B} (file : list B) bs request, by_start request ->
  Forall (fun r => fst r < snd r /\ snd r <= length file) request ->
  submit_request file bs request = Done (map (bytes_of file) request).
Proof.
  intros B file bs request SO V. destruct (submit_request_prefix file bs request SO) as [p [q [E [R S]]]].
  - eapply Forall_impl; [|exact V]. cbn. intros r H. lia.
  - destruct q as [|o q]; [rewrite app_nil_r in E; subst; exact R|]. rewrite E in V. apply Forall_app in V as [_ V]. inversion V; subst. cbn in S. lia.
Qed.
(* the reads sent to the store are disjoint, in order and more than a block apart *)
Lemma coalesced_apart : forall bs request, Forall (fun r => fst r <= snd r) request -> by_start request ->
  StronglySorted (fun a b => snd a + bs < fst b) (updated_requests bs request) /\
  Forall (fun r => exists g, In g (updated_requests bs request) /\ fst g <= fst r /\ snd r <= snd g) request.
Proof.
  intros bs request V SO. destruct (request_groups bs request V SO) as [grp [E [S [C _]]]]. rewrite E, <- S. clear - C. induction grp as [|[g ms] t IH].
  - split; constructor.
  - cbn in C. destruct C as [C1 [C2 [C3 C4]]]. destruct (IH C4) as [I1 I2]. cbn. split.
    + constructor; [exact I1|]. rewrite Forall_forall in *. intros x I. apply in_map_iff in I as [h [<- I]]. apply C3. exact I.
    + apply Forall_app. split.
      * eapply Forall_impl; [|exact C2]. intros m [W1 [W2 W3]]. exists g. cbn. auto.
      * eapply Forall_impl; [|exact I2]. intros m [g' [I W]]. exists g'. cbn. auto.
Qed.
(* an empty range at the edge of its read makes it and all later answers vanish *)
Lemma empty_range_refuted : exists (file : list nat) bs request, by_start request /\ Forall (fun r => fst r <= snd r /\ snd r <= length file) request /\
  length request = 2 /\ submit_request file bs request = Done [].
Proof.
  exists [10; 11; 12], 4, [(0, 0); (0, 3)]. split; [repeat constructor|]. split; [repeat constructor; cbn; lia|]. split; reflexivity.
Qed.
(* ... and reading a single empty range panics *)
Lemma single_empty_panics : forall {B} (file : list B) bs a, submit_single file bs (a, a) = Panic.
Proof.
  intros B file bs a. unfold submit_single, submit_request. cbn [updated_requests coalesce map sequence_opt]. unfold read. cbn [fst snd]. rewrite Nat.eqb_refl.
  cbn [combine length reslice Nat.add]. unfold is_overlapping. cbn [fst snd]. rewrite Nat.ltb_irrefl. cbn. reflexivity.
Qed.
Lemma single_exact : forall {B} (file : list B) bs r, fst r < snd r -> snd r <= length file -> submit_single file bs r = Done (bytes_of file r).
Proof. intros B file bs r H1 H2. unfold submit_single. rewrite submit_request_exact by (repeat constructor; auto). reflexivity. Qed.
(* ranges that are not in order panic *)
Lemma unsorted_refuted : exists (file : list nat) bs request, Forall (fun r => fst r < snd r /\ snd r <= length file) request /\ submit_request file bs request = Panic.
Proof. exists [10; 11; 12; 13; 14], 4, [(2, 4); (1, 3)]. split; [repeat constructor; cbn; lia|reflexivity]. Qed.
(* ... or drop answers *)
Lemma unsorted_lost_refuted : exists (file : list nat) bs request, Forall (fun r => fst r < snd r /\ snd r <= length file) request /\
  length request = 2 /\ submit_request file bs request = Done [[12; 13]].
Proof. exists [10; 11; 12; 13; 14], 0, [(2, 4); (0, 1)]. split; [repeat constructor; cbn; lia|split; reflexivity]. Qed.
Example coalesce_ex : submit_request [0; 1; 2; 3; 4; 5; 6; 7; 8; 9] 1 [(0, 2); (1, 4); (5, 6); (8, 10)] = Done [[0; 1]; [1; 2; 3]; [5]; [8; 9]] /\
  updated_requests 1 [(0, 2); (1, 4); (5, 6); (8, 10)] = [(0, 6); (8, 10)].
Proof. split; reflexivity. Qed.
