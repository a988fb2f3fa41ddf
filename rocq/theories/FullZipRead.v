(* Reading pages of the full-zip layout: fixed width values. *)
From Coq Require Import List Arith NArith Bool Lia.
From Verif Require Import Lib SerdeModel SerdeProofs RepDefModel RepDefProofs FullZipModel FullZipProofs.
Import ListNotations.
Local Open Scope nat_scope.

Section Fixed.
Context (p : parser) (mr mv : N) (w : nat) (wd : item -> list N * desc) (R D : item -> list nat).
(* what the parser makes of the bytes of an item *)
Definition reads (it : item) : Prop :=
  (forall rest, parse p (fst (wd it) ++ rest) = Some (R it, D it)) /\ (forall rest, parse_desc p (fst (wd it) ++ rest) mr mv = Some (snd (wd it))) /\
  length (fst (wd it)) = p_bytes p /\ shown wd it /\ match D it with x :: _ => (N.of_nat x <=? mv)%N | [] => true end = is_some (i_val it) /\
  match i_val it with Some v => length v = w | None => True end.
Let E := bytes_of wd enc_fixed.
Let F (us : list (list item)) := flat_map E (concat us).
Lemma E_length : forall it, reads it -> length (E it) = (if is_some (i_val it) then w else 0) + p_bytes p.
Proof. intros it (_ & _ & L & _ & _ & V). unfold E, bytes_of. rewrite app_length, L. unfold enc_fixed. destruct (i_val it); cbn [is_some length]; lia. Qed.
Lemma F_app : forall a b, F (a ++ b) = F a ++ F b.
Proof. intros a b. unfold F. now rewrite concat_app, flat_map_app. Qed.

Lemma scan_tail : forall t A B fuel m r i, Forall reads t -> Forall (fun x => d_new (snd (wd x)) = false) t -> 0 < p_bytes p ->
  scan_rows (length t + fuel) p mr mv w m (A ++ flat_map E t ++ B) (length A) r i = scan_rows fuel p mr mv w m (A ++ flat_map E t ++ B) (length A + length (flat_map E t)) r (i + length t).
Proof.
  induction t as [|it t IH]; intros A B fuel m r i G W P; [cbn [length flat_map app Nat.add]; now rewrite !Nat.add_0_r|].
  inversion G as [|? ? G1 G2]; inversion W as [|? ? W1 W2]; subst. assert (EL := E_length it G1). destruct G1 as (G1 & G1' & L & S & V & _).
  cbn [length Nat.add scan_rows flat_map]. rewrite (proj2 (Nat.leb_gt _ _)) by (rewrite !app_length; lia).
  rewrite skipn_app, skipn_all2, Nat.sub_diag by lia. cbn [skipn app]. unfold E at 1, bytes_of at 1. rewrite <- !app_assoc, G1'. cbn [obind]. rewrite W1. cbn [andb]. rewrite S.
  replace (length A + (if is_some (i_val it) then w else 0) + p_bytes p) with (length (A ++ E it)) by (rewrite app_length; lia).
  rewrite (app_assoc A (E it)). rewrite IH by assumption. rewrite !app_length. f_equal; lia.
Qed.
Lemma scan_units : forall us A B fuel m r i, Forall (starts_row wd) us -> Forall reads (concat us) -> 0 < p_bytes p -> r <= m -> length (concat us) < fuel ->
  (B = [] \/ exists it b, B = E it ++ b /\ reads it /\ d_new (snd (wd it)) = true /\ m - r <= length us) ->
  scan_rows fuel p mr mv w m (A ++ F us ++ B) (length A) r i =
  Some (length A + length (F (firstn (m - r) us)), r + length (firstn (m - r) us), i + length (concat (firstn (m - r) us))).
Proof.
  induction us as [|u us IH]; intros A B fuel m r i S G P L FU HB.
  - destruct fuel as [|fuel]; [lia|]. rewrite firstn_nil. cbn [F concat flat_map length app]. change (F []) with (@nil N). cbn [app length]. rewrite !Nat.add_0_r. cbn [scan_rows].
    destruct HB as [->|[it [b [-> [Gi [Ni Li]]]]]].
    + rewrite app_nil_r. rewrite (proj2 (Nat.leb_le _ _)) by lia. reflexivity.
    + assert (EL := E_length it Gi). destruct Gi as (_ & G1' & _ & _). rewrite (proj2 (Nat.leb_gt _ _)) by (rewrite !app_length; lia). rewrite skipn_app, skipn_all2, Nat.sub_diag by lia. cbn [skipn app]. unfold E at 1, bytes_of at 1. rewrite <- !app_assoc, G1'. cbn [obind]. rewrite Ni. cbn [length] in Li. rewrite (proj2 (Nat.eqb_eq r m)) by lia. reflexivity.
  - inversion S as [|? ? S1 S2]; subst. destruct u as [|it t]; [destruct S1|]. destruct S1 as [N1 Nt]. cbn [concat] in G. apply Forall_app in G as [G1 G2]. inversion G1 as [|? ? Gi Gt]; subst. assert (EL := E_length it Gi). assert (Gi' := Gi). destruct Gi' as (_ & G1' & _ & Sh & _).
    destruct fuel as [|fuel]; [lia|]. cbn [scan_rows].
    assert (FE : F ((it :: t) :: us) = E it ++ flat_map E t ++ F us) by (unfold F; cbn [concat app flat_map]; rewrite flat_map_app; reflexivity).
    rewrite FE. rewrite (proj2 (Nat.leb_gt _ _)) by (rewrite !app_length; lia). rewrite skipn_app, skipn_all2, Nat.sub_diag by lia. cbn [skipn app]. unfold E at 1, bytes_of at 1. rewrite <- !app_assoc, G1'. cbn [obind]. rewrite N1. cbn [andb].
    destruct (Nat.eqb_spec r m) as [->|NE].
    + rewrite Nat.sub_diag. cbn [firstn length concat]. change (F []) with (@nil N). cbn [length]. now rewrite !Nat.add_0_r.
    + rewrite Sh. replace (length A + (if is_some (i_val it) then w else 0) + p_bytes p) with (length (A ++ E it)) by (rewrite app_length; lia).
      cbn [length concat app] in FU. rewrite app_length in FU. replace fuel with (length t + (fuel - length t)) by lia.
      replace (A ++ E it ++ flat_map E t ++ F us ++ B) with ((A ++ E it) ++ flat_map E t ++ (F us ++ B)) by (rewrite <- !app_assoc; reflexivity).
      rewrite scan_tail by assumption. rewrite <- app_length. rewrite (app_assoc (A ++ E it)). rewrite IH; auto; try lia.
      * replace (m - r) with (Datatypes.S (m - Datatypes.S r)) by lia. cbn [firstn concat]. unfold F at 2. cbn [concat]. rewrite flat_map_app. cbn [flat_map]. fold (F (firstn (m - Datatypes.S r) us)). rewrite !app_length. cbn [length]. f_equal. f_equal; [f_equal|]; lia.
      * destruct HB as [->|[it' [b [-> [Gi' [Ni Li]]]]]]; [left; reflexivity|]. right. exists it', b. repeat split; auto; try apply Gi'. cbn [length] in Li. lia.
Qed.

(* ---- the state of the decoder: ranges of units, the first partly read ---- *)
(* a unit is a row of the page, or an item if there are no lists *)
Definition unit_ok (u : list item) : Prop := Forall reads u /\ (if p_rep p then starts_row wd u else exists it, u = [it] /\ i_val it <> None).
Definition state (f : fdec) (pre : list (list item)) (gs : list (list (list item))) : Prop :=
  match gs with [] => f_bufs f = [] | g :: gs' => f_bufs f = F (pre ++ g) :: map F gs' /\ f_off f = length (F pre) end.
Definition task (us : list (list item)) : list N * nat * nat := (F us, length (concat us), length us).
Context (WP : 0 < w) (PB : p_rep p = true -> 0 < p_bytes p).
Lemma units_reads : forall us, Forall unit_ok us -> Forall reads (concat us).
Proof. intros us G. induction G as [|u us [G1 _] G IH]; [constructor|]. cbn [concat]. apply Forall_app. split; assumption. Qed.
Lemma F_pos : forall us, Forall unit_ok us -> 0 < length us -> 0 < length (F us).
Proof.
  intros us G L. destruct us as [|u us]; [cbn in L; lia|]. inversion G as [|? ? [G1 G2] _]; subst. unfold F. cbn [concat]. rewrite flat_map_app, app_length.
  assert (Q : exists it t, u = it :: t /\ 0 < (if is_some (i_val it) then w else 0) + p_bytes p).
  { destruct (p_rep p) eqn:X; [destruct u as [|it t]; [destruct G2|]; exists it, t; split; auto; specialize (PB eq_refl); lia|]. destruct G2 as [it [-> V]]. exists it, []. split; [reflexivity|]. destruct (i_val it); [cbn; lia|congruence]. }
  destruct Q as [it [t [-> Q]]]. inversion G1 as [|? ? Gi _]; subst. cbn [flat_map]. rewrite app_length, (E_length it Gi). lia.
Qed.
Lemma items_le : forall us, Forall unit_ok us -> 0 < p_bytes p -> length (concat us) <= length (F us).
Proof.
  intros us G P. unfold F. apply units_reads in G. revert G. generalize (concat us). intros l G. induction G as [|it l Gi G IH]; [cbn; lia|]. cbn [flat_map length]. rewrite app_length, (E_length it Gi). lia.
Qed.
Lemma unit_flat : forall us, Forall unit_ok us -> p_rep p = false -> length (F us) = length us * (w + p_bytes p) /\ length (concat us) = length us.
Proof.
  intros us G N. induction G as [|u us [G1 G2] G IH]; [split; reflexivity|]. rewrite N in G2. destruct G2 as [it [-> V]]. inversion G1 as [|? ? Gi _]; subst. destruct IH as [I1 I2]. unfold F in *. cbn [concat app flat_map length]. rewrite app_length, I1, I2, (E_length it Gi). destruct (i_val it); [cbn [is_some]; split; lia|congruence].
Qed.
Lemma scan_more : forall us A B m, Forall (starts_row wd) us -> Forall unit_ok us -> p_rep p = true -> 
  (B = [] \/ exists it b, B = E it ++ b /\ reads it /\ d_new (snd (wd it)) = true /\ m <= length us) ->
  forall fuel, length (concat us) < fuel -> scan_rows fuel p mr mv w m (A ++ F us ++ B) (length A) 0 0 = Some (length A + length (F (firstn m us)), length (firstn m us), length (concat (firstn m us))).
Proof.
  intros us A B m S G P HB fuel L. rewrite (scan_units us A B fuel m 0 0); auto; [now rewrite Nat.sub_0_r, !Nat.add_0_l|now apply units_reads|lia|]. rewrite Nat.sub_0_r. exact HB.
Qed.

Lemma slice_state : forall m f pre g gs, 0 < m -> Forall unit_ok g -> state f pre (g :: gs) ->
  exists f', slice_next p mr mv w m f = Some (f', task (firstn m g)) /\ (if length g <=? m then state f' [] gs else state f' (pre ++ firstn m g) (skipn m g :: gs)).
Proof.
  intros m f pre g gs M G [SB SO]. unfold slice_next. rewrite SB, SO.
  assert (BF : F (pre ++ g) = F pre ++ F (firstn m g) ++ F (skipn m g)) by (rewrite <- !F_app, firstn_skipn; reflexivity).
  assert (GF : Forall unit_ok (firstn m g)) by (apply Forall_forall; intros x J; rewrite Forall_forall in G; apply G; rewrite <- (firstn_skipn m g); apply in_or_app; left; exact J).
  assert (GS : Forall unit_ok (skipn m g)) by (apply Forall_forall; intros x J; rewrite Forall_forall in G; apply G; rewrite <- (firstn_skipn m g); apply in_or_app; right; exact J).
  case_eq (p_rep p); intros PR.
  - assert (RG : forall us, Forall unit_ok us -> Forall (starts_row wd) us) by (intros us H; eapply Forall_impl; [|exact H]; intros u [_ U]; rewrite PR in U; exact U).
    rewrite F_app. rewrite <- (app_nil_r (F g)). rewrite (scan_more g (F pre) [] m (RG _ G) G PR) by (try (left; reflexivity); rewrite !app_length; cbn [length]; assert (Q := items_le g G (PB PR)); lia).
    cbn [obind]. rewrite app_nil_r, <- F_app, BF, sub_mid. cbn [omap]. eexists. split; [reflexivity|].
    destruct (Nat.leb_spec (length g) m) as [L|L].
    + rewrite (skipn_all2 g L), (firstn_all2 g L). change (F []) with (@nil N). rewrite !app_length. cbn [length]. rewrite Nat.add_0_r, Nat.eqb_refl. destruct gs; cbn; auto.
    + rewrite !app_length. assert (Q := F_pos (skipn m g) GS ltac:(rewrite skipn_length; lia)). destruct (Nat.eqb_spec (length (F pre) + length (F (firstn m g))) (length (F pre) + (length (F (firstn m g)) + length (F (skipn m g))))); [lia|]. split; cbn [f_bufs f_off]; [|now rewrite F_app, app_length]. rewrite <- app_assoc, firstn_skipn, <- BF. reflexivity.
  - destruct (unit_flat g G PR) as [L1 L2]. rewrite F_app, app_length. replace (length (F pre) + length (F g) - length (F pre)) with (length (F g)) by lia. rewrite L1.
    destruct (Nat.leb_spec (length g) m) as [L|L].
    + rewrite (proj2 (Nat.leb_le _ _)) by nia. rewrite <- L1. replace (F pre ++ F g) with (F pre ++ F g ++ []) by now rewrite app_nil_r. rewrite sub_mid. cbn [omap]. eexists. split; [rewrite (firstn_all2 g L); unfold task; rewrite L2, L1, Nat.div_mul by lia; reflexivity|]. destruct gs; cbn; auto.
    + rewrite (proj2 (Nat.leb_gt _ _)) by nia. destruct (unit_flat _ GF PR) as [L3 L4]. rewrite firstn_length, Nat.min_l in L3, L4 by lia. rewrite <- L3. rewrite <- F_app, BF, sub_mid. cbn [omap]. eexists. split; [unfold task; rewrite L4, firstn_length, Nat.min_l by lia; reflexivity|]. split; cbn [f_bufs f_off]; [|now rewrite F_app, app_length]. rewrite <- app_assoc, firstn_skipn, <- BF. reflexivity.
Qed.
Lemma drain_state : forall fuel m gs pre f, Forall unit_ok (concat gs) -> m <= length (concat gs) -> length gs <= fuel -> state f pre gs ->
  exists f' uss pre' gs', drain_loop fuel p mr mv w m f = Some (f', map task uss) /\ concat uss = firstn m (concat gs) /\ state f' pre' gs' /\ concat gs' = skipn m (concat gs) /\ length (f_bufs f') = length gs'.
Proof.
  induction fuel as [|fuel IH]; intros m gs pre f G M L S.
  - destruct gs; [|cbn in L; lia]. cbn in M. assert (m = 0) by lia. subst m. exists f, [], pre, []. cbn. cbn in S. rewrite S. auto.
  - destruct m as [|m].
    { exists f, [], pre, gs. cbn [drain_loop map concat]. repeat split; auto. destruct gs as [|g gs]; [cbn in *; rewrite S; reflexivity|]. destruct S as [-> _]. cbn. now rewrite map_length. }
    destruct gs as [|g gs]; [cbn in M; lia|]. cbn [concat] in *. apply Forall_app in G as [G1 G2]. destruct (slice_state (Datatypes.S m) f pre g gs ltac:(lia) G1 S) as [f1 [E1 S1]]. cbn [drain_loop]. rewrite E1. cbn [obind task snd]. rewrite app_length in M. cbn [length] in L.
    destruct (Nat.leb_spec (length g) (Datatypes.S m)) as [Q|Q].
    + rewrite (firstn_all2 g Q). destruct (IH (Datatypes.S m - length g) gs [] f1 G2 ltac:(lia) ltac:(lia) S1) as [f' [uss [pre' [gs' [I1 [I2 [I3 [I4 I5]]]]]]]]. rewrite I1. cbn [omap]. exists f', (g :: uss), pre', gs'. split; [reflexivity|]. split; [cbn [concat]; rewrite I2, firstn_app, (firstn_all2 g Q); reflexivity|]. split; [exact I3|]. split; [rewrite I4, skipn_app, (skipn_all2 g Q); reflexivity|exact I5].
    + rewrite firstn_length, Nat.min_l by lia. rewrite Nat.sub_diag. exists f1, [firstn (Datatypes.S m) g], (pre ++ firstn (Datatypes.S m) g), (skipn (Datatypes.S m) g :: gs).
      split; [destruct fuel; reflexivity|]. split; [cbn [concat]; rewrite app_nil_r, firstn_app; replace (Datatypes.S m - length g) with 0 by lia; rewrite firstn_O, app_nil_r; reflexivity|]. split; [exact S1|]. split; [cbn [concat]; rewrite skipn_app; replace (Datatypes.S m - length g) with 0 by lia; reflexivity|]. destruct S1 as [-> _]. cbn. now rewrite map_length.
Qed.

(* ---- decoding ---- *)
Lemma unzip_read : forall l rest, Forall reads l -> unzip_items p mv w (length l) (flat_map E l ++ rest) = Some (flat_map R l, flat_map D l, flat_map vals_of l).
Proof.
  induction l as [|it l IH]; intros rest G; [reflexivity|]. inversion G as [|? ? Gi G2]; subst. destruct Gi as (G1 & _ & L & _ & V & W). cbn [length unzip_items flat_map].
  assert (EB : E it = fst (wd it) ++ match i_val it with Some v => v | None => [] end) by reflexivity. assert (EV : vals_of it = match i_val it with Some v => [v] | None => [] end) by reflexivity. rewrite EB, EV, <- !app_assoc, G1. cbn [obind].
  assert (SK : forall x, skipn (p_bytes p) (fst (wd it) ++ x) = x) by (intros x; rewrite <- L, skipn_app, skipn_all, Nat.sub_diag; reflexivity). rewrite !SK, V. destruct (i_val it) as [v|]; cbn [is_some].
  - rewrite <- W. replace (sub 0 (length v) (v ++ flat_map E l ++ rest)) with (Some v) by (symmetry; exact (sub_mid [] v _)). cbn [omap obind]. rewrite skipn_app, skipn_all, Nat.sub_diag. cbn [skipn app]. rewrite W, IH by exact G2. reflexivity.
  - cbn [obind app]. rewrite IH by exact G2. reflexivity.
Qed.
Lemma chunks_vals : forall vs fuel, Forall (fun v => length v = w) vs -> length (concat vs) <= fuel -> chunks_exact fuel w (concat vs) = vs.
Proof.
  intros vs fuel G. revert fuel. induction G as [|v vs V G IH]; intros fuel L; [destruct fuel; [reflexivity|]; cbn [concat chunks_exact length]; rewrite (proj2 (Nat.ltb_lt _ _) WP); reflexivity|].
  cbn [concat] in *. rewrite app_length in L. destruct fuel as [|fuel]; [lia|]. cbn [chunks_exact]. rewrite app_length. rewrite (proj2 (Nat.ltb_ge _ _)) by lia. rewrite firstn_app, skipn_app, V, Nat.sub_diag, firstn_O, app_nil_r. cbn [skipn]. rewrite firstn_all2, skipn_all2 by lia. cbn [app]. rewrite IH by lia. reflexivity.
Qed.
Definition batch (us : list (list item)) : decoded :=
  {| o_rep := none_if_empty (flat_map R (concat us)); o_def := none_if_empty (flat_map D (concat us)); o_vals := flat_map vals_of (concat us) |}.
Context (NB : p_bytes p = 0 -> forall it, R it = [] /\ D it = []).
Lemma decode_tasks : forall uss, Forall unit_ok (concat uss) -> decode_fixed p mv w (map task uss) = Some (batch (concat uss)).
Proof.
  intros uss G. unfold decode_fixed, batch. destruct (Nat.eqb_spec (p_bytes p) 0) as [Z|Z].
  - assert (RN : forall l, flat_map R l = [] /\ flat_map D l = []) by (induction l as [|it l [I1 I2]]; [split; reflexivity|]; cbn [flat_map]; rewrite I1, I2; destruct (NB Z it) as [-> ->]; split; reflexivity).
    rewrite (proj1 (RN _)), (proj2 (RN _)). cbn [none_if_empty]. f_equal. f_equal. rewrite flat_map_concat_map, map_map. induction uss as [|us uss IH]; [reflexivity|]. cbn [map concat] in *. apply Forall_app in G as [G1 G2]. rewrite IH by exact G2. rewrite concat_app, flat_map_app. f_equal. cbn [task fst snd].
    assert (PR : p_rep p = false) by (destruct (p_rep p) eqn:X; [specialize (PB eq_refl); lia|reflexivity]).
    assert (Q : F us = concat (flat_map vals_of (concat us)) /\ Forall (fun v => length v = w) (flat_map vals_of (concat us)) /\ length (flat_map vals_of (concat us)) = length (concat us)).
    { clear IH G2. unfold F. induction G1 as [|u us [G1 G3] G IH]; [repeat split; constructor|]. rewrite PR in G3. destruct G3 as [it [-> V]]. inversion G1 as [|? ? Gi _]; subst. destruct Gi as (_ & _ & L & _ & _ & W). destruct IH as [I1 [I2 I3]]. cbn [concat app flat_map length]. unfold vals_of at 1 3 5. destruct (i_val it) as [v|] eqn:EV; [|congruence]. cbn [app length concat]. rewrite I1, I3. repeat split; [|constructor; auto]. f_equal. unfold E, bytes_of. rewrite EV. destruct (fst (wd it)); [reflexivity|cbn in L; lia]. }
    destruct Q as [Q1 [Q2 Q3]]. rewrite Q1, chunks_vals by auto. apply firstn_all2. lia.
  - replace (sequence_opt (map (fun t => unzip_items p mv w (snd (fst t)) (fst (fst t))) (map task uss))) with (Some (map (fun us => (flat_map R (concat us), flat_map D (concat us), flat_map vals_of (concat us))) uss)).
    + cbn [omap]. f_equal. assert (Q : forall B (h : item -> list B), flat_map (fun us : list (list item) => flat_map h (concat us)) uss = flat_map h (concat (concat uss))) by (intros B h; clear; induction uss as [|us uss IH]; [reflexivity|]; cbn [flat_map concat]; rewrite concat_app, flat_map_app, IH; reflexivity).
      rewrite !flat_map_concat_map, !map_map, <- !flat_map_concat_map. cbn [fst snd]. rewrite !Q. reflexivity.
    + symmetry. rewrite map_map. cbn [task fst snd]. induction uss as [|us uss IH]; [reflexivity|]. cbn [map concat sequence_opt] in *. apply Forall_app in G as [G1 G2]. rewrite IH by exact G2. unfold F at 1. rewrite <- (app_nil_r (flat_map E (concat us))) at 1. rewrite unzip_read by (apply units_reads; exact G1). reflexivity.
Qed.
(* the units of successive batches *)
Fixpoint groups (ns : list nat) {A} (l : list A) : list (list A) := match ns with [] => [] | n :: ns => firstn n l :: groups ns (skipn n l) end.
Lemma drains_read : forall ipr ns gs pre f, Forall unit_ok (concat gs) -> sumn (map (fun n => n * ipr) ns) <= length (concat gs) -> length (f_bufs f) = length gs -> state f pre gs ->
  drains p mr mv w ipr ns f = Some (map batch (groups (map (fun n => n * ipr) ns) (concat gs))).
Proof.
  induction ns as [|n ns IH]; intros gs pre f G L LB S; [reflexivity|]. cbn [map sumn] in L. cbn [drains map groups].
  destruct (drain_state (length (f_bufs f)) (n * ipr) gs pre f G ltac:(cbn in L; lia) ltac:(lia) S) as [f' [uss [pre' [gs' [I1 [I2 [I3 [I4 I5]]]]]]]]. rewrite I1. cbn [obind].
  rewrite decode_tasks by (rewrite I2; apply Forall_forall; intros x J; rewrite Forall_forall in G; apply G; rewrite <- (firstn_skipn (n * ipr) (concat gs)); apply in_or_app; left; exact J).
  cbn [obind]. rewrite (IH gs' pre' f'); auto.
  - rewrite I2, I4. reflexivity.
  - rewrite I4. apply Forall_forall; intros x J; rewrite Forall_forall in G; apply G; rewrite <- (firstn_skipn (n * ipr) (concat gs)); apply in_or_app; right; exact J.
  - rewrite I4, skipn_length. cbn in L. lia.
Qed.
End Fixed.
