(* Proofs about ObjectWriter (C119, C120). *)
From Coq Require Import List Arith Lia Bool.
From Verif Require Import Lib UploadModel.
Import ListNotations.

Section Proofs.
Context {B : Type}.
Variable cfg : config.
Notation writer := (writer B). Notation part := (part B).
Definition none_lost (parts : list part) : Prop := existsb lost parts = false.
(* the size of part i of an upload: the first has the initial size, part i + 1 the
   capacity set when part i was given out *)
Definition size_of (i : nat) : nat := match i with 0 => initial cfg | S k => new_capacity cfg k end.
Definition full (parts : list part) : Prop := forall i p, nth_error parts i = Some p -> length (p_data p) = size_of i.
Definition full_but_last (parts : list part) : Prop := forall i p, nth_error parts i = Some p -> S i < length parts -> length (p_data p) = size_of i.
Definition bytes (parts : list part) : list B := concat (map (@p_data B) parts).
Definition good (closing : bool) (w : writer) (acc : list B) : Prop :=
  w_cursor w = length acc /\
  match w_state w with
  | Started => w_buffer w = acc /\ w_capacity w = initial cfg /\ length (w_buffer w) <= w_capacity w /\ w_resets w = 0
  | CreatingUpload => w_buffer w = acc /\ w_capacity w = initial cfg /\ length (w_buffer w) = w_capacity w /\ w_resets w = 0
  | InProgress idx parts =>
      (w_resets w = 0 <-> none_lost parts) /\
      (none_lost parts -> bytes parts ++ w_buffer w = acc /\
        ((idx = length parts /\ 1 <= idx /\ w_capacity w = new_capacity cfg (idx - 1) /\ length (w_buffer w) <= w_capacity w /\ full parts)
         \/ (closing = true /\ w_buffer w = [] /\ full_but_last parts)))
  | PuttingSingle data => data = acc /\ w_resets w = 0 /\ closing = true
  | Completing parts => (w_resets w = 0 <-> none_lost parts) /\ (none_lost parts -> bytes parts = acc /\ full_but_last parts) /\ closing = true
  | Done => ((strict cfg = true \/ w_resets w = 0) -> w_object w = Some acc) /\ (strict cfg = true -> w_resets w = 0) /\ closing = true
  end.

(* ---- parts ---- *)
Lemma set_status_data : forall parts i s, map (@p_data B) (set_status parts i s) = map (@p_data B) parts.
Proof. induction parts as [|p t IH]; intros [|i] s; cbn [set_status map p_data]; auto. now rewrite IH. Qed.
Lemma set_status_length : forall parts i s, length (set_status (B := B) parts i s) = length parts.
Proof. intros. rewrite <- (map_length (@p_data B)), set_status_data. apply map_length. Qed.
Lemma set_uploaded_lost : forall parts i, ready parts i = true -> existsb lost (set_status parts i Uploaded) = existsb (lost (B := B)) parts.
Proof.
  induction parts as [|p t IH]; intros [|i] H; unfold ready in H; cbn [nth_error] in H; try discriminate; cbn [set_status existsb].
  - unfold lost at 1. cbn [p_status]. unfold running in H. unfold lost at 2. destruct (p_status p); try discriminate. reflexivity.
  - rewrite IH; auto.
Qed.
Lemma set_lost : forall parts i, ready (B := B) parts i = true -> existsb lost (set_status parts i Lost) = true.
Proof.
  induction parts as [|p t IH]; intros [|i] H; unfold ready in H; cbn [nth_error] in H; try discriminate; cbn [set_status existsb].
  - reflexivity.
  - rewrite IH; auto. apply orb_true_r.
Qed.
Lemma put_lost : forall parts d, existsb lost (put_part parts d) = existsb (lost (B := B)) parts.
Proof. intros. unfold put_part. rewrite existsb_app. cbn. apply orb_false_r. Qed.
Lemma bytes_put : forall parts d, bytes (put_part parts d) = bytes parts ++ d.
Proof. intros. unfold bytes, put_part. rewrite map_app, concat_app. cbn. now rewrite app_nil_r. Qed.
Lemma nth_data : forall parts parts' : list part, map (@p_data B) parts = map (@p_data B) parts' -> forall i p, nth_error parts i = Some p -> exists p', nth_error parts' i = Some p' /\ p_data p' = p_data p.
Proof.
  intros parts parts' H i p E. assert (E2 : nth_error (map (@p_data B) parts') i = Some (p_data p)) by (rewrite <- H; now apply map_nth_error).
  destruct (nth_error parts' i) as [p'|] eqn:E3.
  - exists p'. split; auto. rewrite (map_nth_error (@p_data B) i parts' E3) in E2. congruence.
  - apply nth_error_None in E3. assert (nth_error (map (@p_data B) parts') i <> None) by congruence. apply nth_error_Some in H0. rewrite map_length in H0. lia.
Qed.
Lemma full_same : forall parts parts', map (@p_data B) parts = map (@p_data B) parts' -> full parts' -> full parts.
Proof. intros parts parts' H F i p E. destruct (nth_data _ _ H i p E) as (p' & E' & D). rewrite <- D. eauto. Qed.
Lemma full_but_last_same : forall parts parts', map (@p_data B) parts = map (@p_data B) parts' -> full_but_last parts' -> full_but_last parts.
Proof.
  intros parts parts' H F i p E L. destruct (nth_data _ _ H i p E) as (p' & E' & D). rewrite <- D. apply (F i); auto.
  apply (f_equal (@length _)) in H. rewrite !map_length in H. lia.
Qed.
Lemma full_put : forall parts d, full parts -> length d = size_of (length parts) -> full (put_part parts d).
Proof.
  intros parts d F L i p E. unfold put_part in E. destruct (Nat.lt_ge_cases i (length parts)) as [G|G].
  - rewrite nth_error_app1 in E by auto. eauto.
  - rewrite nth_error_app2 in E by auto. destruct (i - length parts) as [|k] eqn:K; cbn [nth_error] in E.
    + injection E as <-. cbn [p_data]. rewrite L. f_equal. lia.
    + destruct k; discriminate.
Qed.
Lemma but_last_put : forall parts d, full parts -> full_but_last (put_part parts d).
Proof.
  intros parts d F i p E L. unfold put_part in *. rewrite app_length in L. cbn [length] in L.
  rewrite nth_error_app1 in E by lia. eauto.
Qed.
Lemma full_but : forall parts, full parts -> full_but_last parts.
Proof. intros parts F i p E _. eauto. Qed.
Lemma full_nil : full [].
Proof. intros [|i] p E; discriminate. Qed.
Lemma filter_none_lost : forall parts, none_lost parts -> filter (fun p => negb (lost p)) parts = parts.
Proof. induction parts as [|p t IH]; unfold none_lost; cbn [existsb filter]; intros H; auto. apply orb_false_iff in H. destruct H as [-> H]. cbn [negb]. now rewrite IH. Qed.

Lemma size_S : forall n, 1 <= n -> size_of n = new_capacity cfg (n - 1).
Proof. intros [|n] H; [lia|]. cbn [size_of]. f_equal. lia. Qed.

(* ---- poll_tasks ---- *)
Lemma poll_tasks_good : forall closing ev w acc b w' ev', good closing w acc -> poll_tasks cfg ev w = (Fine b, w', ev') ->
  good closing w' acc.
Proof.
  intros closing ev. induction ev as [|e ev IH]; intros w acc b w' ev' G H.
  - assert (w' = w); [|subst; auto]. cbn [poll_tasks] in H. destruct (w_state w); try (injection H; auto; fail). destruct (futures parts =? 0); injection H; auto.
  - pose proof G as G0. destruct w as [st cur rs buf cap obj]. unfold good in G. cbn [w_state w_cursor w_resets w_buffer w_capacity w_object] in G. destruct G as [GC G].
    cbn [poll_tasks w_state] in H. destruct st as [| |idx parts|data|parts|].
    + injection H as <- <- <-. exact G0.
    + destruct G as (G1 & G2 & G3 & G4). destruct e as [|i|i e].
      * injection H as <- <- <-. exact G0.
      * cbn [next_part_buffer w_buffer w_state w_cursor w_resets w_object set_state w_capacity] in H. eapply IH; [|exact H].
        unfold good, set_state. cbn [w_state w_cursor w_resets w_buffer w_capacity w_object]. split; auto. split.
        -- unfold none_lost. cbn. split; auto.
        -- intros _. split; [unfold bytes; cbn; rewrite !app_nil_r; auto|]. left. repeat split; auto; [cbn; lia|].
           apply (full_put []); [apply full_nil|]. cbn [length size_of]. lia.
      * discriminate.
    + destruct G as [GR GN]. destruct (futures parts =? 0) eqn:EF; [injection H as <- <- <-; exact G0|].
      destruct e as [|i|i e].
      * injection H as <- <- <-. exact G0.
      * destruct (ready parts i) eqn:ER; [|injection H as <- <- <-; exact G0].
        eapply IH; [|exact H]. unfold good, set_state. cbn [w_state w_cursor w_resets w_buffer w_capacity w_object]. split; auto.
        pose proof (set_uploaded_lost parts i ER) as EL. pose proof (set_status_data parts i Uploaded) as ED. pose proof (set_status_length parts i Uploaded) as EN.
        unfold none_lost in *. rewrite EL. split; auto. intros NL. destruct (GN NL) as [G1 G2]. unfold bytes in *. rewrite ED, EN. split; auto.
        destruct G2 as [(A1 & A2 & A3 & A4 & A5)|(A1 & A2 & A3)]; [left|right]; repeat split; auto; [eapply full_same; eauto|eapply full_but_last_same; eauto].
      * destruct e; [|destruct (ready parts i); [discriminate|injection H as <- <- <-; exact G0]].
        destruct (ready parts i) eqn:ER; [|injection H as <- <- <-; exact G0].
        cbn [w_resets] in H. destruct (rs <? max_resets cfg); [|discriminate].
        eapply IH; [|exact H]. unfold good. cbn [w_state w_cursor w_resets w_buffer w_capacity w_object]. split; auto.
        unfold none_lost. rewrite put_lost, (set_lost _ _ ER). split; [split; discriminate|discriminate].
    + destruct e; try discriminate; injection H as <- <- <-; [exact G0|]. split; auto. cbn [w_state w_object w_resets].
      destruct G as (-> & G2 & G3). repeat split; auto.
    + destruct G as (G1 & G2 & G3). destruct e; try discriminate; [injection H as <- <- <-; exact G0|].
      unfold complete in H. destruct (existsb lost parts) eqn:EL; cbn [andb] in H.
      * destruct (strict cfg) eqn:ES; [discriminate|]. injection H as <- <- <-. split; auto. cbn [w_state w_object w_resets].
        repeat split; auto; try congruence. intros [X|X]; [congruence|]. exfalso. rewrite G1 in X. unfold none_lost in X. congruence.
      * injection H as <- <- <-. split; auto. cbn [w_state w_object w_resets]. destruct (G2 EL) as [G4 G5].
        repeat split; auto; [|intros; apply G1; auto]. intros _. rewrite filter_none_lost by auto. fold (bytes parts). congruence.
    + injection H as <- <- <-. exact G0.
Qed.
Definition is_open (w : writer) : bool := match w_state w with Started | CreatingUpload | InProgress _ _ => true | _ => false end.
Lemma good_open : forall w acc, good false w acc -> is_open w = true.
Proof. intros w acc [_ G]. unfold is_open. destruct (w_state w); auto; destruct G as (_ & _ & X); congruence. Qed.

(* ---- poll_write ---- *)
Lemma append_good : forall w acc buf n, good false w acc -> n = Nat.min (w_capacity w - length (w_buffer w)) (length buf) ->
  good false (Build_writer (w_state w) (w_cursor w + n) (w_resets w) (w_buffer w ++ firstn n buf) (w_capacity w) (w_object w)) (acc ++ firstn n buf).
Proof.
  intros w acc buf n G E. pose proof (good_open w acc G) as O. destruct G as [GC G].
  assert (LF : length (firstn n buf) = n) by (rewrite firstn_length; lia).
  unfold good. cbn [w_state w_cursor w_resets w_buffer w_capacity w_object]. split; [rewrite app_length, LF; lia|].
  unfold is_open in O. destruct (w_state w) as [| |idx parts| | |]; try discriminate.
  - destruct G as (G1 & G2 & G3 & G4). rewrite <- G1. repeat split; auto. rewrite app_length, LF. lia.
  - destruct G as (G1 & G2 & G3 & G4). rewrite <- G1. repeat split; auto. rewrite app_length, LF. lia.
  - destruct G as [G1 G2]. split; auto. intros NL. destruct (G2 NL) as [G3 [(A1 & A2 & A3 & A4 & A5)|(A1 & _)]]; [|congruence].
    rewrite app_assoc, G3. split; auto. left. repeat split; auto. rewrite app_length, LF. lia.
Qed.
Lemma start_good : forall w acc, good false w acc -> good false (start_request cfg w) acc.
Proof.
  intros w acc G. unfold start_request. destruct (w_capacity w =? length (w_buffer w)) eqn:E; auto. apply Nat.eqb_eq in E.
  pose proof (good_open w acc G) as O. unfold is_open in O. destruct w as [st cur rs buf cap obj]. cbn [w_state w_capacity w_buffer] in *.
  destruct st as [| |idx parts| | |]; try discriminate; auto.
  - destruct G as [GC (G1 & G2 & G3 & G4)]. cbn [w_state w_cursor w_resets w_buffer w_capacity w_object] in *. split; cbn; auto.
  - destruct (futures parts <? parallelism cfg); auto. destruct G as [GC [G1 G2]]. cbn [w_state w_cursor w_resets w_buffer w_capacity w_object] in *.
    unfold next_part_buffer, set_state. cbn [w_state w_cursor w_resets w_buffer w_capacity w_object]. split; auto. cbn [w_state w_cursor w_resets w_buffer w_capacity w_object].
    unfold none_lost in *. rewrite put_lost. split; auto. intros NL. destruct (G2 NL) as [G3 [(A1 & A2 & A3 & A4 & A5)|(A1 & _)]]; [|congruence].
    rewrite bytes_put, app_nil_r. split; auto. left. unfold put_part at 1. rewrite app_length. cbn [length]. repeat split; try lia.
    + f_equal. lia.
    + apply full_put; auto. rewrite size_S by lia. rewrite <- A1, <- A3. auto.
Qed.
Lemma poll_write_good : forall ev w buf acc r w', good false w acc -> poll_write cfg ev w buf = (r, w') ->
  match r with
  | Ready n => 0 < n /\ n <= length buf /\ good false w' (acc ++ firstn n buf)
  | Pending _ => good false w' acc
  | Fail => True
  end.
Proof.
  intros ev w buf acc r w' G H. unfold poll_write in H. destruct (poll_tasks cfg ev w) as [[r1 w1] ev1] eqn:E1.
  destruct r1 as [b1|]; [|injection H as <- <-; exact Logic.I].
  pose proof (poll_tasks_good _ _ _ _ _ _ _ G E1) as G1.
  set (n := Nat.min (w_capacity w1 - length (w_buffer w1)) (length buf)) in *.
  pose proof (start_good _ _ (append_good w1 acc buf n G1 eq_refl)) as G2.
  destruct (poll_tasks cfg ev1 _) as [[r2 w2] ev2] eqn:E2 in H.
  destruct r2 as [b2|]; [|injection H as <- <-; exact Logic.I].
  pose proof (poll_tasks_good _ _ _ _ _ _ _ G2 E2) as G3.
  destruct (n =? 0) eqn:E; injection H as <- <-.
  - apply Nat.eqb_eq in E. rewrite E in G3. cbn [firstn] in G3. now rewrite app_nil_r in G3.
  - apply Nat.eqb_neq in E. split; [lia|]. split; [unfold n; lia|exact G3].
Qed.
Lemma poll_flush_good : forall ev w acc r w', good false w acc -> poll_flush cfg ev w = (r, w') -> r <> Fail -> good false w' acc.
Proof.
  intros ev w acc r w' G H N. unfold poll_flush in H. destruct (poll_tasks cfg ev w) as [[r1 w1] ev1] eqn:E1.
  destruct r1 as [b1|]; [|injection H as <- <-; congruence]. pose proof (poll_tasks_good _ _ _ _ _ _ _ G E1) as G1.
  destruct (w_state w1) as [| |idx parts| | |] eqn:ES; try (injection H as <- <-; auto; fail). destruct (futures parts =? 0); injection H as <- <-; auto.
Qed.
Lemma writes_good : forall l w acc acc' w', good false w acc -> writes cfg l w acc = Some (acc', w') -> good false w' acc'.
Proof.
  induction l as [|[buf ev|ev] t IH]; intros w acc acc' w' G H; cbn [writes] in H.
  - injection H as <- <-. auto.
  - destruct (poll_write cfg ev w buf) as [[n|b|] w1] eqn:E; try discriminate; pose proof (poll_write_good _ _ _ _ _ _ G E) as P; cbn beta iota in P.
    + destruct P as (_ & _ & P). eapply IH; eauto.
    + eapply IH; eauto.
  - destruct (poll_flush cfg ev w) as [[n|b|] w1] eqn:E; try discriminate; (eapply IH; [|exact H]; eapply poll_flush_good; eauto; congruence).
Qed.

(* ---- poll_shutdown ---- *)
Lemma good_closing : forall w acc, good false w acc -> good true w acc.
Proof.
  intros w acc [GC G]. split; auto. destruct (w_state w); auto; try (destruct G as (_ & _ & X); congruence).
  destruct G as [G1 G2]. split; auto. intros NL. destruct (G2 NL) as [G3 [A|A]]; split; auto. destruct A; congruence.
Qed.
Lemma shutdown_good : forall fuel ev w acc r w', 1 <= parallelism cfg -> good true w acc -> shutdown_loop cfg fuel ev w = (r, w') ->
  match r with
  | Ready _ => good true w' acc /\ w_state w' = Done
  | Pending _ => good true w' acc
  | Fail => True
  end.
Proof.
  induction fuel as [|fuel IH]; intros ev w acc r w' P G H; cbn [shutdown_loop] in H; [injection H as <- <-; auto|].
  destruct (poll_tasks cfg ev w) as [[r1 w1] ev1] eqn:E1. destruct r1 as [b1|]; [|injection H as <- <-; exact Logic.I].
  pose proof (poll_tasks_good _ _ _ _ _ _ _ G E1) as G1. destruct w1 as [st cur rs buf cap obj]. cbn [w_state w_buffer w_cursor w_resets w_object w_capacity] in H.
  destruct st as [| |idx parts|data|parts|]; try (injection H as <- <-; auto; fail).
  - apply IH with (acc := acc) in H; auto. destruct G1 as [GC (A1 & A2 & A3 & A4)]. cbn [w_state w_buffer w_cursor w_resets w_object w_capacity] in *. split; auto. cbn. auto.
  - pose proof G1 as G0. destruct G1 as [GC [A1 A2]]. cbn [w_state w_buffer w_cursor w_resets w_object w_capacity] in *.
    destruct (negb (length buf =? 0) && (futures parts <? parallelism cfg)) eqn:E.
    + apply IH with (acc := acc) in H; auto. split; auto. cbn [w_state w_buffer w_cursor w_resets w_object w_capacity].
      apply andb_prop in E. destruct E as [EB _]. apply negb_true_iff, Nat.eqb_neq in EB.
      unfold none_lost in *. rewrite put_lost. split; auto. intros NL. destruct (A2 NL) as [A3 A4]. rewrite bytes_put, app_nil_r. split; auto.
      right. repeat split; auto. destruct A4 as [(_ & _ & _ & _ & F)|(_ & X & _)]; [now apply but_last_put|subst buf; cbn in EB; lia].
    + destruct (futures parts =? 0) eqn:EF; [|injection H as <- <-; exact G0].
      apply Nat.eqb_eq in EF. rewrite EF in E. assert (0 <? parallelism cfg = true) as EP by (apply Nat.ltb_lt; lia). rewrite EP, andb_true_r in E.
      apply negb_false_iff, Nat.eqb_eq in E. assert (buf = []) by (destruct buf; auto; discriminate). subst buf.
      apply IH with (acc := acc) in H; auto. unfold set_state. split; auto. cbn [w_state w_buffer w_cursor w_resets w_object w_capacity].
      split; auto. split; auto. intros NL. destruct (A2 NL) as [A3 A4]. rewrite app_nil_r in A3. split; auto.
      destruct A4 as [(_ & _ & _ & _ & F)|(_ & _ & F)]; auto. now apply full_but.
Qed.
Lemma shutdowns_good : forall l w acc b w', 1 <= parallelism cfg -> good true w acc -> shutdowns cfg l w = Some (b, w') ->
  good true w' acc /\ (b = true -> w_state w' = Done).
Proof.
  induction l as [|ev t IH]; intros w acc b w' P G H; cbn [shutdowns] in H; [injection H as <- <-; split; auto; discriminate|].
  destruct (poll_shutdown cfg ev w) as [[u|b1|] w1] eqn:E; try discriminate; pose proof (shutdown_good _ _ _ _ _ _ P G E) as S; cbn beta iota in S.
  - injection H as <- <-. tauto.
  - eapply IH; eauto.
Qed.
Lemma new_good : good false (new cfg) [].
Proof. unfold good, new. cbn. repeat split; auto. lia. Qed.

(* ---- waking up ---- *)
Lemma poll_tasks_wakes : forall ev (w : writer) b w' ev', poll_tasks cfg ev w = (Fine b, w', ev') ->
  match w_state w' with
  | Started | Done => True
  | InProgress _ parts => b = negb (futures parts =? 0)
  | _ => b = true
  end.
Proof.
  induction ev as [|e ev IH]; intros w b w' ev' H; cbn [poll_tasks] in H; destruct (w_state w) as [| |idx parts|data|parts|] eqn:ES;
    try (injection H as <- <- <-; rewrite ES; auto; fail).
  - destruct (futures parts =? 0) eqn:E; injection H as <- <- <-; rewrite ES, E; reflexivity.
  - destruct e; try discriminate; [injection H as <- <- <-; rewrite ES; auto|]. eapply IH; exact H.
  - destruct (futures parts =? 0) eqn:E; [injection H as <- <- <-; rewrite ES, E; reflexivity|].
    destruct e as [|i|i []]; try (injection H as <- <- <-; rewrite ES, E; reflexivity).
    + destruct (ready parts i); [eapply IH; exact H|injection H as <- <- <-; rewrite ES, E; reflexivity].
    + destruct (ready parts i); [|injection H as <- <- <-; rewrite ES, E; reflexivity].
      destruct (w_resets w <? max_resets cfg); [eapply IH; exact H|discriminate].
    + destruct (ready parts i); [discriminate|injection H as <- <- <-; rewrite ES, E; reflexivity].
  - destruct e; try discriminate; injection H as <- <- <-; [rewrite ES; auto|exact Logic.I].
  - destruct e; try discriminate; [injection H as <- <- <-; rewrite ES; auto|]. destruct (complete cfg parts); [injection H as <- <- <-; exact Logic.I|discriminate].
Qed.
Lemma flush_wakes : forall ev (w : writer) b w', poll_flush cfg ev w = (Pending b, w') -> b = true.
Proof.
  intros ev w b w' H. unfold poll_flush in H. destruct (poll_tasks cfg ev w) as [[r1 w1] ev1] eqn:E1.
  destruct r1 as [b1|]; [|discriminate]. pose proof (poll_tasks_wakes _ _ _ _ _ E1) as P.
  destruct (w_state w1) as [| |idx parts| | |] eqn:ES; try discriminate; try (injection H as <- <-; auto; fail).
  destruct (futures parts =? 0) eqn:E; [discriminate|]. injection H as <- <-. auto.
Qed.
(* the loop of poll_shutdown ends within the turns of the model *)
Definition turns (w : writer) : nat :=
  match w_state w with Started | CreatingUpload => 2 | InProgress _ _ => if length (w_buffer w) =? 0 then 2 else 3 | _ => 1 end.
Lemma poll_tasks_turns : forall ev (w : writer) b w' ev', poll_tasks cfg ev w = (Fine b, w', ev') -> turns w' <= turns w.
Proof.
  induction ev as [|e ev IH]; intros w b w' ev' H; cbn [poll_tasks] in H; destruct (w_state w) as [| |idx parts|data|parts|] eqn:ES;
    try (injection H as <- <- <-; auto; fail).
  - destruct (futures parts =? 0); injection H as <- <- <-; auto.
  - destruct e; try discriminate; [injection H as <- <- <-; auto|]. eapply IH in H. unfold turns at 2. rewrite ES.
    unfold turns at 2 in H. cbn in H. exact H.
  - assert (K : forall p' r, turns (Build_writer (InProgress idx p') (w_cursor w) r (w_buffer w) (w_capacity w) (w_object w)) = turns w) by (intros; unfold turns; rewrite ES; reflexivity).
    destruct (futures parts =? 0); [injection H as <- <- <-; auto|].
    destruct e as [|i|i []]; try (injection H as <- <- <-; auto; fail).
    + destruct (ready parts i); [eapply IH in H; unfold set_state in H; rewrite K in H; auto|injection H as <- <- <-; auto].
    + destruct (ready parts i); [|injection H as <- <- <-; auto].
      destruct (w_resets w <? max_resets cfg); [eapply IH in H; rewrite K in H; auto|discriminate].
    + destruct (ready parts i); [discriminate|injection H as <- <- <-; auto].
  - destruct e; try discriminate; injection H as <- <- <-; auto. unfold turns at 2. rewrite ES. cbn. lia.
  - destruct e; try discriminate; [injection H as <- <- <-; auto|]. destruct (complete cfg parts); [injection H as <- <- <-|discriminate]. unfold turns at 2. rewrite ES. cbn. lia.
Qed.
Lemma shutdown_wakes : forall fuel ev (w : writer) b w', turns w <= fuel -> shutdown_loop cfg fuel ev w = (Pending b, w') -> b = true.
Proof.
  induction fuel as [|fuel IH]; intros ev w b w' T H; cbn [shutdown_loop] in H.
  - unfold turns in T. destruct (w_state w); try lia. destruct (length (w_buffer w) =? 0); lia.
  - destruct (poll_tasks cfg ev w) as [[r1 w1] ev1] eqn:E1. destruct r1 as [b1|]; [|discriminate].
    pose proof (poll_tasks_wakes _ _ _ _ _ E1) as P. pose proof (poll_tasks_turns _ _ _ _ _ E1) as Q. unfold turns at 1 in Q.
    destruct (w_state w1) as [| |idx parts| | |] eqn:ES; try discriminate; try (injection H as <- <-; auto; fail).
    + eapply IH; [|exact H]. unfold turns. cbn. lia.
    + destruct (negb (length (w_buffer w1) =? 0) && (futures parts <? parallelism cfg)) eqn:E.
      * eapply IH; [|exact H]. unfold turns. cbn. apply andb_prop in E. destruct E as [E _]. apply negb_true_iff in E. rewrite E in Q. lia.
      * destruct (futures parts =? 0) eqn:EF; [|injection H as <- <-; auto]. eapply IH; [|exact H]. unfold turns. cbn. destruct (length (w_buffer w1) =? 0); lia.
Qed.
Lemma turns_le : forall w, turns w <= 3.
Proof. intros w. unfold turns. destruct (w_state w); try lia. destruct (length (w_buffer w) =? 0); lia. Qed.
Lemma poll_shutdown_wakes : forall ev (w : writer) b w', poll_shutdown cfg ev w = (Pending b, w') -> b = true.
Proof. intros. eapply shutdown_wakes; [|exact H]. pose proof (turns_le w). lia. Qed.
End Proofs.

(* ---- the theorems ---- *)
(* whatever the sizes of the writes, the interleaving of the uploads and the flushes:
   if shutdown returns Ok, the object is the bytes accepted, in order, and tell is
   their number *)
Theorem written_exact : forall {B} cfg calls acc (w : writer B) polls w', 1 <= parallelism cfg -> strict cfg = true \/ w_resets w' = 0 ->
  writes cfg calls (new cfg) [] = Some (acc, w) -> shutdowns cfg polls w = Some (true, w') ->
  w_object w' = Some acc /\ tell w' = length acc.
Proof.
  intros B cfg calls acc w polls w' P S H1 H2. pose proof (writes_good cfg _ _ _ _ _ (new_good cfg) H1) as G.
  destruct (shutdowns_good cfg _ _ _ _ _ P (good_closing _ _ _ G) H2) as [[GC G1] D]. rewrite (D eq_refl) in G1.
  split; [apply G1; auto|exact GC].
Qed.
Theorem tell_exact : forall {B} cfg calls acc (w : writer B), writes cfg calls (new cfg) [] = Some (acc, w) -> tell w = length acc.
Proof. intros B cfg calls acc w H. apply (writes_good cfg _ _ _ _ _ (new_good cfg) H). Qed.
(* a write that is ready accepts a non-empty front part of its buffer *)
Theorem write_front : forall {B} cfg calls acc (w : writer B) ev buf n w', writes cfg calls (new cfg) [] = Some (acc, w) ->
  poll_write cfg ev w buf = (Ready n, w') -> 0 < n /\ n <= length buf.
Proof.
  intros B cfg calls acc w ev buf n w' H H2. pose proof (poll_write_good cfg _ _ _ _ _ _ (writes_good cfg _ _ _ _ _ (new_good cfg) H) H2). cbn beta iota in H0. tauto.
Qed.
(* the parts of the upload, at any time when no part has been lost *)
Definition parts_of {B} (w : writer B) : list (part B) := match w_state w with InProgress _ p | Completing p => p | _ => [] end.
Theorem part_sizes : forall {B} cfg calls acc (w : writer B) polls b w', 1 <= parallelism cfg ->
  writes cfg calls (new cfg) [] = Some (acc, w) -> shutdowns cfg polls w = Some (b, w') -> existsb lost (parts_of w') = false ->
  forall i p, nth_error (parts_of w') i = Some p -> S i < length (parts_of w') ->
  initial cfg <= length (p_data p) /\ (constant cfg = true -> length (p_data p) = initial cfg).
Proof.
  intros B cfg calls acc w polls b w' P H1 H2 NL i p E L. pose proof (writes_good cfg _ _ _ _ _ (new_good cfg) H1) as G.
  destruct (shutdowns_good cfg _ _ _ _ _ P (good_closing _ _ _ G) H2) as [[GC G1] D].
  assert (SZ : length (p_data p) = size_of cfg i).
  { unfold parts_of in *. destruct (w_state w') as [| |idx parts| |parts|]; try (destruct i; discriminate).
    - destruct G1 as [_ G1]. destruct (G1 NL) as [_ [(_ & _ & _ & _ & F)|(_ & _ & F)]]; eauto.
    - destruct G1 as (_ & G1 & _). destruct (G1 NL) as [_ F]. eauto. }
  rewrite SZ. unfold size_of, new_capacity. destruct i; [split; auto|]. destruct (constant cfg); split; auto; [lia|discriminate].
Qed.
(* a reset connection that is retried is never made good *)
Theorem reset_fails : forall {B} cfg calls acc (w : writer B) polls w', 1 <= parallelism cfg -> strict cfg = true ->
  writes cfg calls (new cfg) [] = Some (acc, w) -> shutdowns cfg polls w = Some (true, w') -> w_resets w' = 0.
Proof.
  intros B cfg calls acc w polls w' P S H1 H2. pose proof (writes_good cfg _ _ _ _ _ (new_good cfg) H1) as G.
  destruct (shutdowns_good cfg _ _ _ _ _ P (good_closing _ _ _ G) H2) as [[GC G1] D]. rewrite (D eq_refl) in G1. apply G1; auto.
Qed.
Theorem shutdown_pending_wakes : forall {B} cfg ev (w : writer B) b w', poll_shutdown cfg ev w = (Pending b, w') -> b = true.
Proof. intros B cfg. exact (poll_shutdown_wakes cfg). Qed.
Theorem flush_pending_wakes : forall {B} cfg ev (w : writer B) b w', poll_flush cfg ev w = (Pending b, w') -> b = true.
Proof. intros B cfg. exact (flush_wakes cfg). Qed.
(* a write that is pending with nothing to wake it: an empty buffer, or an idle upload *)
Theorem write_pending : forall {B} cfg calls acc (w : writer B) ev buf w', 1 <= initial cfg -> writes cfg calls (new cfg) [] = Some (acc, w) ->
  poll_write cfg ev w buf = (Pending false, w') -> buf = [] \/ exists idx parts, w_state w' = InProgress idx parts /\ futures parts = 0.
Proof.
  intros B cfg calls acc w ev buf w' P H1 H2. pose proof (writes_good cfg _ _ _ _ _ (new_good cfg) H1) as G.
  pose proof (poll_write_good cfg _ _ _ _ _ _ G H2) as G'. cbn beta iota in G'. unfold poll_write in H2.
  destruct (poll_tasks cfg ev w) as [[r1 w1] ev1] eqn:E1. destruct r1 as [b1|]; [|discriminate].
  set (n := Nat.min (w_capacity w1 - length (w_buffer w1)) (length buf)) in *.
  destruct (poll_tasks cfg ev1 _) as [[r2 w2] ev2] eqn:E2 in H2. destruct r2 as [b2|]; [|discriminate].
  destruct (n =? 0) eqn:E; [|discriminate]. injection H2 as -> ->. apply Nat.eqb_eq in E.
  pose proof (poll_tasks_wakes cfg _ _ _ _ _ E2) as W. pose proof (good_open _ _ _ G') as O. unfold is_open in O.
  destruct buf as [|x buf]; [auto|right].
  destruct (w_state w') as [| |idx parts| | |] eqn:ES; try discriminate.
  - exfalso. (* still Started: then there was room *)
    pose proof (poll_tasks_good cfg _ _ _ _ _ _ _ G E1) as G1.
    rewrite E in E2. cbn [firstn] in E2. rewrite app_nil_r, Nat.add_0_r in E2.
    assert (FULL : w_capacity w1 <= length (w_buffer w1)) by (unfold n in E; cbn [length] in E; lia).
    assert (NS : forall ev w b w' ev', poll_tasks cfg ev w = (Fine b, w', ev') -> w_state w' = @Started B -> w_state w = Started).
    { clear. induction ev as [|e ev IH]; intros w b w' ev' H S; cbn [poll_tasks] in H; destruct (w_state w) as [| |idx parts|data|parts|] eqn:ES; auto;
      try (injection H as <- <- <-; congruence).
      - destruct (futures parts =? 0); injection H as <- <- <-; congruence.
      - destruct e; try discriminate; [injection H as <- <- <-; congruence|]. eapply IH in H; eauto; discriminate.
      - destruct (futures parts =? 0); [injection H as <- <- <-; congruence|].
        destruct e as [|i|i []]; try (injection H as <- <- <-; congruence).
        + destruct (ready parts i); [eapply IH in H; eauto; discriminate|injection H as <- <- <-; congruence].
        + destruct (ready parts i); [|injection H as <- <- <-; congruence].
          destruct (w_resets w <? max_resets cfg); [eapply IH in H; eauto; discriminate|discriminate].
        + destruct (ready parts i); [discriminate|injection H as <- <- <-; congruence].
      - destruct e; try discriminate; injection H as <- <- <-; [congruence|discriminate].
      - destruct e; try discriminate; [injection H as <- <- <-; congruence|]. destruct (complete cfg parts); [injection H as <- <- <-; discriminate|discriminate]. }
    apply NS in E2; auto. clear NS. unfold start_request in E2. cbn [w_capacity w_buffer w_state] in E2.
    destruct (w_state w1) as [| |idx parts| | |] eqn:ES1.
    + destruct G1 as [_ G1]. rewrite ES1 in G1. destruct G1 as (_ & _ & G1 & _).
      assert (w_capacity w1 =? length (w_buffer w1) = true) as X by (apply Nat.eqb_eq; lia). rewrite X in E2. discriminate.
    + destruct (w_capacity w1 =? length (w_buffer w1)); discriminate.
    + destruct (w_capacity w1 =? length (w_buffer w1)); [|discriminate]. destruct (futures parts <? parallelism cfg); discriminate.
    + destruct (w_capacity w1 =? length (w_buffer w1)); discriminate.
    + destruct (w_capacity w1 =? length (w_buffer w1)); discriminate.
    + destruct (w_capacity w1 =? length (w_buffer w1)); discriminate.
  - exists idx, parts. split; auto. symmetry in W. apply negb_false_iff, Nat.eqb_eq in W. exact W.
Qed.

(* ---- shutdown can always finish ---- *)
Lemma ready_exists : forall {B} (parts : list (part B)), futures parts <> 0 -> exists i, ready parts i = true.
Proof.
  intros B. induction parts as [|p t IH]; unfold futures; cbn [filter length]; intros H; [congruence|].
  destruct (running p) eqn:E; [exists 0; exact E|]. destruct (IH H) as [i R]. exists (S i). exact R.
Qed.
Lemma set_uploaded_futures : forall {B} (parts : list (part B)) i, ready parts i = true -> futures parts = S (futures (set_status parts i Uploaded)).
Proof.
  intros B. induction parts as [|p t IH]; intros [|i] H; unfold ready in H; cbn [nth_error] in H; try discriminate; unfold futures; cbn [set_status filter].
  - rewrite H. reflexivity.
  - specialize (IH i H). unfold futures in IH. destruct (running p); cbn [length]; rewrite IH; reflexivity.
Qed.
Lemma poll_tasks_idle : forall {B} cfg ev (w : writer B) idx parts, w_state w = InProgress idx parts -> futures parts = 0 -> poll_tasks cfg ev w = (Fine false, w, ev).
Proof. intros B cfg ev w idx parts H F. destruct ev; cbn [poll_tasks]; rewrite H, F; reflexivity. Qed.
Lemma drain : forall {B} cfg k idx (parts : list (part B)) cur rs buf cap obj, futures parts = k -> exists ev parts',
  futures parts' = 0 /\ existsb lost parts' = existsb lost parts /\
  forall rest, poll_tasks cfg (ev ++ rest) (Build_writer (InProgress idx parts) cur rs buf cap obj) = (Fine false, Build_writer (InProgress idx parts') cur rs buf cap obj, rest).
Proof.
  intros B cfg. induction k as [|k IH]; intros idx parts cur rs buf cap obj F.
  - exists [], parts. split; auto. split; auto. intros rest. eapply poll_tasks_idle; [reflexivity|auto].
  - destruct (ready_exists parts) as [i R]; [lia|]. pose proof (set_uploaded_futures parts i R) as S.
    destruct (IH idx (set_status parts i Uploaded) cur rs buf cap obj) as (ev & parts' & A1 & A2 & A3); [lia|].
    exists (Ok i :: ev), parts'. split; auto. split; [rewrite A2; now apply set_uploaded_lost|].
    intros rest. cbn [app poll_tasks w_state]. rewrite F. cbn [Nat.eqb]. rewrite R. apply A3.
Qed.
Lemma finish_parts : forall {B} cfg idx (parts : list (part B)) cur rs buf cap obj, 1 <= parallelism cfg -> existsb lost parts = false ->
  exists ev w', shutdown_loop cfg 4 ev (Build_writer (InProgress idx parts) cur rs buf cap obj) = (Ready tt, w').
Proof.
  intros B cfg idx parts cur rs buf cap obj P NL.
  assert (L : forall fuel idx (q : list (part B)) cur rs cap obj, existsb lost q = false -> exists ev w', shutdown_loop cfg (S (S fuel)) ev (Build_writer (InProgress idx q) cur rs [] cap obj) = (Ready tt, w')).
  { clear -P. intros fuel idx q cur rs cap obj NL. destruct (drain cfg (futures q) idx q cur rs [] cap obj eq_refl) as (ev & q' & A1 & A2 & A3).
    exists (ev ++ [Ok 0]). eexists. cbn [shutdown_loop]. rewrite A3. cbn [w_state w_buffer length Nat.eqb negb andb]. rewrite A1. cbn [Nat.eqb set_state w_state w_cursor w_resets w_buffer w_capacity w_object poll_tasks].
    unfold complete. rewrite A2, NL. cbn [andb w_state]. reflexivity. }
  destruct buf as [|x buf]; [apply (L 2); auto|].
  destruct (drain cfg (futures parts) idx parts cur rs (x :: buf) cap obj eq_refl) as (ev & q' & A1 & A2 & A3).
  destruct (L 1 idx (put_part q' (x :: buf)) cur rs 0 obj) as (ev2 & w' & E); [rewrite put_lost, A2; auto|].
  exists (ev ++ ev2), w'. change (shutdown_loop cfg 4) with (fun e (v : writer B) => shutdown_loop cfg 4 e v). cbn beta.
  cbn [shutdown_loop]. rewrite A3. cbn [w_state w_buffer w_cursor w_resets w_object length Nat.eqb negb]. rewrite A1.
  assert (0 <? parallelism cfg = true) as EP by (apply Nat.ltb_lt; lia). rewrite EP. cbn [andb]. exact E.
Qed.
(* a writer without a reset can be shut down: one poll whose uploads all succeed is enough *)
Theorem can_finish : forall {B} cfg calls acc (w : writer B), 1 <= parallelism cfg -> writes cfg calls (new cfg) [] = Some (acc, w) -> w_resets w = 0 ->
  exists ev w', poll_shutdown cfg ev w = (Ready tt, w').
Proof.
  intros B cfg calls acc w P H R. pose proof (writes_good cfg _ _ _ _ _ (new_good cfg) H) as G. pose proof (good_open _ _ _ G) as O.
  destruct w as [st cur rs buf cap obj]. destruct G as [GC G]. unfold is_open in O. cbn [w_state w_cursor w_resets w_buffer w_capacity w_object] in *.
  destruct st as [| |idx parts| | |]; try discriminate.
  - exists [Ok 0]. eexists. reflexivity.
  - destruct (finish_parts cfg 1 (put_part [] buf) cur rs [] (new_capacity cfg 0) obj P eq_refl) as (ev & w' & E).
    exists (Ok 0 :: ev), w'. unfold poll_shutdown. rewrite <- E. reflexivity.
  - apply finish_parts; auto. apply G. exact R.
Qed.
