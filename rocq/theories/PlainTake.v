(* Taking rows of plain encoded columns by index (C138). *)
From Coq Require Import List Arith Bool Lia Sorted.
From Verif Require Import Lib PlainModel PlainProofs.
Import ListNotations.
Local Open Scope nat_scope.

Lemma Forall2_imp {A B} (P Q : A -> B -> Prop) l r : (forall x y, P x y -> Q x y) -> Forall2 P l r -> Forall2 Q l r.
Proof. intros H. induction 1; constructor; auto. Qed.
Section One.
  Variables (t : ty) (pre post : list byte) (arrays : list (list val)).
  Hypothesis Hs : sized t.
  Hypothesis Hf : Forall (has t) (concat arrays).
  Notation rows := (concat arrays).
  Notation file := (pre ++ encode t arrays ++ post).
  Lemma take_chunk_sound req vs : take_chunk file t (length pre) (length rows) req = Some vs -> Forall2 (fun i v => nth_error rows i = Some v) req vs.
  Proof.
    unfold take_chunk. rewrite write_get by assumption. unfold reads. set (s := hd 0 req). set (e := last req 0).
    destruct (Nat.leb_spec (e + 1) s).
    - intros E. apply all_some_spec in E. apply (proj1 (Forall2_map_l _ _ _ _)) in E. eapply Forall2_imp; [|exact E]. intros i v. cbn beta. destruct (i <? s); [discriminate|]. destruct (i - s); discriminate.
    - destruct (length rows <? e + 1); [discriminate|]. intros E. apply all_some_spec in E. apply (proj1 (Forall2_map_l _ _ _ _)) in E. eapply Forall2_imp; [|exact E]. intros i v. cbn beta. destruct (Nat.ltb_spec i s); [discriminate|]. intros Q. apply slice_nth in Q. replace (s + (i - s)) with i in Q by lia. exact Q.
  Qed.
  Lemma take_chunk_total req : req <> [] -> StronglySorted le req -> Forall (fun i => i < length rows) req -> exists vs, take_chunk file t (length pre) (length rows) req = Some vs.
  Proof.
    intros Hn St Fl. unfold take_chunk. rewrite write_get by assumption. unfold reads. set (s := hd 0 req). set (e := last req 0). rewrite Forall_forall in Fl.
    assert (Hse : forall i, In i req -> s <= i <= e). { intros i Hi. unfold s, e. clear -St Hi. revert i Hi. induction St as [|x l St IH F]; intros i Hi; [destruct Hi|]. rewrite Forall_forall in F. cbn [hd]. destruct l as [|y l']; [destruct Hi as [<-|[]]; cbn; lia|].
      change (last (x :: y :: l') 0) with (last (y :: l') 0). destruct Hi as [<-|Hi]; [split; [lia|]; assert (Hy : In y (y :: l')) by (left; reflexivity); pose proof (IH y Hy) as [_ IH']; specialize (F y Hy); lia|]. pose proof (IH i Hi) as [_ IH']. specialize (F i Hi). lia. }
    assert (He : In e req). { unfold e. destruct (exists_last Hn) as (l'&a&->). rewrite last_last. apply in_or_app. right. left. reflexivity. }
    pose proof (Fl e He) as Le. pose proof (Hse e He) as Lse. destruct (Nat.leb_spec (e + 1) s); [lia|]. destruct (Nat.ltb_spec (length rows) (e + 1)); [lia|].
    assert (G : forall l, incl l req -> exists vs, all_some (map (fun i => if i <? s then None else nth_error (slice s (e + 1 - s) rows) (i - s)) l) = Some vs); [|apply G, incl_refl].
    induction l as [|i l IH]; intros Hl; [eexists; reflexivity|]. destruct IH as [vs IH]; [intros z Hz; apply Hl; right; exact Hz|]. cbn [map all_some]. rewrite IH. pose proof (Hse i (Hl i (or_introl eq_refl))) as Hi. destruct (Nat.ltb_spec i s); [lia|].
    destruct (nth_error (slice s (e + 1 - s) rows) (i - s)) eqn:E; [eauto|]. apply nth_error_None in E. rewrite slice_length in E by lia. lia.
  Qed.
End One.

Lemma sorted_app l1 l2 : StronglySorted le (l1 ++ l2) -> StronglySorted le l1 /\ StronglySorted le l2.
Proof.
  induction l1 as [|x l1 IH]; cbn; intros H; [split; [constructor|exact H]|]. inversion H as [|? ? H1 H2]; subst. destruct (IH H1) as [I1 I2]. split; [|exact I2]. constructor; [exact I1|]. apply Forall_app in H2. apply H2.
Qed.
Lemma sorted_concat L : StronglySorted le (concat L) -> Forall (StronglySorted le) L.
Proof. induction L as [|x L IH]; cbn; intros H; constructor; apply sorted_app in H; [apply H|apply IH, H]. Qed.

(* types of which take knows the width: no booleans in lists *)
Inductive flat_bool : ty -> Prop := flat_bool_bool : flat_bool TBool | flat_bool_other t : no_bool t -> flat_bool t
with no_bool : ty -> Prop := no_bool_prim w : no_bool (TPrim w) | no_bool_fsb w : no_bool (TFsb w) | no_bool_fsl t n : no_bool t -> no_bool (TFsl t n).
Lemma no_bool_width t : no_bool t -> exists w, byte_width t = Some w.
Proof. induction t as [w| |w|t IH n]; intros H; cbn; eauto; inversion H; subst. destruct IH as [w E]; [assumption|]. rewrite E. cbn. eauto. Qed.

(* whatever the indices: take returns the rows asked for, in the order asked for, or fails *)
Theorem take_sound block t pre post arrays indices vs : sized t -> Forall (has t) (concat arrays) ->
  take block (pre ++ encode t arrays ++ post) t (length pre) (length (concat arrays)) indices = Some vs -> Forall2 (fun i v => nth_error (concat arrays) i = Some v) indices vs.
Proof.
  intros Hs Hf. unfold take. destruct indices as [|i0 is] eqn:Ei; [intros E; injection E as <-; constructor|]. rewrite <- Ei. destruct (match t with TBool => _ | _ => _ end) as [brk|]; [|discriminate].
  destruct (chunks_concat brk indices) as [C1 _]. destruct (all_some _) as [L|] eqn:E; [|discriminate]. cbn. intros Q. injection Q as <-. rewrite <- C1 at 1. apply Forall2_concat.
  apply all_some_spec in E. apply (proj1 (Forall2_map_l _ _ _ _)) in E. eapply Forall2_imp; [|exact E]. intros req r. cbn beta. apply take_chunk_sound; assumption.
Qed.
(* in order and in range, it does not fail *)
Theorem take_total block t pre post arrays indices : sized t -> flat_bool t -> Forall (has t) (concat arrays) -> StronglySorted le indices -> Forall (fun i => i < length (concat arrays)) indices ->
  exists vs, take block (pre ++ encode t arrays ++ post) t (length pre) (length (concat arrays)) indices = Some vs.
Proof.
  intros Hs Hb Hf St Fl. unfold take. destruct indices as [|i0 is] eqn:Ei; [eauto|]. rewrite <- Ei in *.
  assert (B : exists brk, (match t with TBool => Some (brk_bool block) | _ => option_map (fun w => brk_bytes w block) (byte_width t) end) = Some brk).
  { destruct Hb as [|t Hb]; [eauto|]. destruct (no_bool_width t Hb) as [w E]. rewrite E. destruct t; cbn; eauto. }
  destruct B as [brk ->]. destruct (chunks_concat brk indices) as [C1 C2]. rewrite <- C1 in St, Fl. apply sorted_concat in St. revert C2 St Fl. generalize (chunks brk indices) as L. intros L C2 St Fl.
  assert (G : exists R, all_some (map (take_chunk (pre ++ encode t arrays ++ post) t (length pre) (length (concat arrays))) L) = Some R); [|destruct G as [R ->]; cbn; eauto].
  induction L as [|c L IH]; [eexists; reflexivity|]. inversion C2 as [|? ? C21 C22]; inversion St as [|? ? S1 S2]; subst. cbn [concat] in Fl. apply Forall_app in Fl. destruct Fl as [F1 F2]. destruct (IH C22 S2 F2) as [R E]. cbn [map all_some]. rewrite E.
  destruct (take_chunk_total t pre post arrays Hs Hf c C21 S1 F1) as [vs ->]. eauto.
Qed.
(* reading a range: those rows, or an error if there are not as many; none for an empty range *)
Theorem get_range t pre post arrays s e : sized t -> Forall (has t) (concat arrays) -> forall r,
  get (pre ++ write t arrays ++ post) t (length pre) (length (concat arrays)) s e = r ->
  (s < e /\ e <= length (concat arrays) -> exists vs, r = Some vs /\ length vs = e - s /\ forall k, k < e - s -> nth_error vs k = nth_error (concat arrays) (s + k)) /\
  (s < e /\ length (concat arrays) < e -> r = None) /\ (e <= s -> r = Some []).
Proof.
  intros Hs Hf r E. assert (Ew : get (pre ++ write t arrays ++ post) t (length pre) (length (concat arrays)) s e = reads (concat arrays) s e).
  { destruct arrays as [|a l]; [|apply write_get; assumption]. cbn [write]. pose proof (write_get t pre post [[]] s e Hs) as W. cbn in W. specialize (W (Forall_nil _)). assert (En : encode t [[]] = []) by (clear; induction t; cbn; auto). rewrite En in W. exact W. }
  rewrite Ew in E. subst r. unfold reads. split; [|split].
  - intros [H1 H2]. destruct (Nat.leb_spec e s); [lia|]. destruct (Nat.ltb_spec (length (concat arrays)) e); [lia|]. eexists. split; [reflexivity|]. split; [apply slice_length; lia|]. intros k Hk. unfold slice. rewrite nth_error_firstn' by exact Hk. apply nth_error_skipn'.
  - intros [H1 H2]. destruct (Nat.leb_spec e s); [lia|]. destruct (Nat.ltb_spec (length (concat arrays)) e); [reflexivity|lia].
  - intros H. destruct (Nat.leb_spec e s); [reflexivity|lia].
Qed.
