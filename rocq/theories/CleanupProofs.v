(* C46, C47, C48, C79, C80: removing old versions. *)
From Coq Require Import List Arith NArith ZArith Bool Lia String.
From Verif Require Import Lib NamingModel NamingProofs CleanupModel.
Import ListNotations.
Local Open Scope Z_scope.

(** * Specification *)

(* the files version [m] is made of, besides its manifest *)
Inductive needs (m : minfo) : path -> Prop :=
| n_data : forall f, In f (mi_data m) -> needs m [lit "data"; f]
| n_del : forall d, In d (mi_dels m) -> needs m (deletion_path d)
| n_txn : forall f, mi_txn m = Some f -> needs m [lit "_transactions"; f]
| n_index : forall u rest, In u (mi_uuids m) -> needs m (lit "_indices" :: u :: rest).
(* the versions that cleanup must not touch *)
Definition kept (c : ctask) (tagged : list N) (m : minfo) : Prop :=
  (ct_version c <= mi_version m)%N \/ In (mi_version m) tagged \/ ct_before c <= mi_time m.
(* [m] is the manifest stored at [p] *)
Definition holds (l : dir) (p : path) (m : minfo) : Prop := exists o, In (p, o) l /\ is_manifest p = true /\ ob_man o = Some m.
Definition referenced (l : dir) (p : path) : Prop := exists q m, holds l q m /\ needs m p.
Definition young (now : Z) (t : Z) : Prop := now - seven_days <= t.

(** * Small facts *)
Lemma path_eqb_spec : forall a b, path_eqb a b = true <-> a = b.
Proof. intros. unfold path_eqb. destruct (list_eq_dec (list_eq_dec N.eq_dec) a b); split; congruence. Qed.
Lemma str_eqb_spec : forall a b, str_eqb a b = true <-> a = b.
Proof. intros. unfold str_eqb. destruct (list_eq_dec N.eq_dec a b); split; congruence. Qed.
Lemma has_path_In : forall p l, has_path p l = true <-> In p l.
Proof.
  intros. unfold has_path. rewrite existsb_exists. split; [intros [x [I E]]; apply path_eqb_spec in E; subst; exact I|intros I; exists p; split; [exact I|apply path_eqb_spec; reflexivity]].
Qed.
Lemma has_str_In : forall p l, has_str p l = true <-> In p l.
Proof.
  intros. unfold has_str. rewrite existsb_exists. split; [intros [x [I E]]; apply str_eqb_spec in E; subst; exact I|intros I; exists p; split; [exact I|apply str_eqb_spec; reflexivity]].
Qed.
Lemma working_kept : forall c tg m, working c tg m = true <-> kept c tg m.
Proof. intros. unfold working, kept. rewrite !orb_true_iff, N.leb_le, Z.leb_le, memN_In. tauto. Qed.

(** * The inspection *)
Definition mans (l : dir) : list (path * minfo) :=
  flat_map (fun e => if is_manifest (fst e) then match ob_man (snd e) with Some m => [(fst e, m)] | None => [] end else []) l.
Definition refs_of (ms : list minfo) : refs := fold_right add_refs no_refs ms.
Lemma mans_holds : forall l p m, In (p, m) (mans l) <-> holds l p m.
Proof.
  intros l p m. unfold mans, holds. rewrite in_flat_map. split.
  - intros [[q o] [I H]]. cbn in H. destruct (is_manifest q) eqn:E; [|contradiction]. destruct (ob_man o) eqn:F; [|contradiction]. destruct H as [[= -> ->]|[]]. exists o. auto.
  - intros [o [I [E F]]]. exists (p, o). split; [exact I|]. cbn. rewrite E, F. left. reflexivity.
Qed.
Lemma process_spec : forall c tg l i, process_manifests c tg l = Some i ->
  in_old i = map fst (filter (fun e => negb (working c tg (snd e))) (mans l)) /\
  in_ref i = refs_of (filter (working c tg) (map snd (mans l))) /\
  in_ver i = refs_of (filter (fun m => negb (working c tg m)) (map snd (mans l))) /\
  in_tagged i = filter (fun v => memN v tg) (map (fun e => mi_version (snd e)) (mans l)).
Proof.
  intros c tg. induction l as [|e t IH]; intros i E; [injection E as <-; repeat split; reflexivity|].
  cbn [process_manifests] in E. destruct (process_manifests c tg t) as [j|]; [|discriminate]. cbn [obind] in E. specialize (IH j eq_refl). destruct IH as (A & B & C & D).
  unfold mans in *. cbn [flat_map]. destruct (is_manifest (fst e)).
  - unfold process_manifest_file in E. destruct (ob_man (snd e)) as [m|]; [|discriminate]. injection E as <-. cbn [app map filter snd fst in_old in_ref in_ver in_tagged].
    rewrite A, B, C, D. destruct (working c tg m); destruct (memN (mi_version m) tg); repeat split; reflexivity.
  - injection E as <-. auto.
Qed.
Lemma refs_data : forall ms p, In p (rf_data (refs_of ms)) <-> exists m f, In m ms /\ In f (mi_data m) /\ p = data_path f.
Proof.
  induction ms as [|m t IH]; intros p; [split; [intros []|intros (m & f & [] & _)]|]. cbn [refs_of fold_right add_refs rf_data]. fold (refs_of t). rewrite in_app_iff, in_map_iff, IH. split.
  - intros [[f [<- I]]|(m' & f & I & J & ->)]; [exists m, f; cbn; auto|exists m', f; cbn; auto].
  - intros (m' & f & [<-|I] & J & ->); [left; exists f; auto|right; exists m', f; auto].
Qed.
Lemma refs_del : forall ms p, In p (rf_del (refs_of ms)) <-> exists m d, In m ms /\ In d (mi_dels m) /\ p = deletion_path d.
Proof.
  induction ms as [|m t IH]; intros p; [split; [intros []|intros (m & f & [] & _)]|]. cbn [refs_of fold_right add_refs rf_del]. fold (refs_of t). rewrite in_app_iff, in_map_iff, IH. split.
  - intros [[f [<- I]]|(m' & f & I & J & ->)]; [exists m, f; cbn; auto|exists m', f; cbn; auto].
  - intros (m' & f & [<-|I] & J & ->); [left; exists f; auto|right; exists m', f; auto].
Qed.
Lemma refs_txn : forall ms p, In p (rf_txn (refs_of ms)) <-> exists m f, In m ms /\ mi_txn m = Some f /\ p = txn_path f.
Proof.
  induction ms as [|m t IH]; intros p; [split; [intros []|intros (m & f & [] & _)]|]. cbn [refs_of fold_right add_refs rf_txn]. fold (refs_of t). destruct (mi_txn m) as [g|] eqn:E.
  - cbn [In]. rewrite IH. split.
    + intros [<-|(m' & f & I & J & ->)]; [exists m, g; cbn; auto|exists m', f; cbn; auto].
    + intros (m' & f & [<-|I] & J & ->); [left; congruence|right; exists m', f; auto].
  - rewrite IH. split; [intros (m' & f & I & J & ->); exists m', f; cbn; auto|]. intros (m' & f & [<-|I] & J & ->); [congruence|exists m', f; auto].
Qed.
Lemma refs_uuid : forall ms u, In u (rf_uuid (refs_of ms)) <-> exists m, In m ms /\ In u (mi_uuids m).
Proof.
  induction ms as [|m t IH]; intros p; [split; [intros []|intros (m & [] & _)]|]. cbn [refs_of fold_right add_refs rf_uuid]. fold (refs_of t). rewrite in_app_iff, IH. split.
  - intros [I|(m' & I & J)]; [exists m; cbn; auto|exists m'; cbn; auto].
  - intros (m' & [<-|I] & J); [left; auto|right; exists m'; auto].
Qed.
Definition keeps (c : ctask) (tg : list N) (l : dir) (p : path) : Prop := exists q m, holds l q m /\ kept c tg m /\ needs m p.
Lemma in_working : forall c tg l m, In m (filter (working c tg) (map snd (mans l))) <-> exists q, holds l q m /\ kept c tg m.
Proof.
  intros. rewrite filter_In, in_map_iff, working_kept. split.
  - intros [[[q m'] [<- I]] K]. exists q. split; [apply mans_holds; exact I|exact K].
  - intros [q [H K]]. split; [|exact K]. exists (q, m). split; [reflexivity|apply mans_holds; exact H].
Qed.
Lemma in_old_ms : forall c tg l m, In m (filter (fun m => negb (working c tg m)) (map snd (mans l))) <-> exists q, holds l q m /\ ~ kept c tg m.
Proof.
  intros. rewrite filter_In, in_map_iff. rewrite negb_true_iff. split.
  - intros [[[q m'] [<- I]] K]. exists q. split; [apply mans_holds; exact I|]. intros X. apply working_kept in X. cbn in *. congruence.
  - intros [q [H K]]. split; [exists (q, m); split; [reflexivity|apply mans_holds; exact H]|]. apply not_true_is_false. intros X. apply K, working_kept, X.
Qed.

(** * What is removed *)
Ltac pre := reflexivity.
(* a needed file is classified only by the set that holds it *)
Lemma removable_data : forall f b i, removable (data_path f) b i = is_ext (data_path f) "lance" && tracked (data_path f) b (rf_data (in_ref i)) (rf_data (in_ver i)).
Proof.
  intros. unfold removable. change (starts_with (joined (data_path f)) (lit "_versions/.tmp")) with false. change (starts_with (joined (data_path f)) (lit "_indices")) with false.
  change (starts_with (joined (data_path f)) (lit "data")) with true. change (starts_with (joined (data_path f)) (lit "_deletions")) with false.
  change (starts_with (joined (data_path f)) (lit "_transactions")) with false.
  destruct (is_ext (data_path f) "lance"); [reflexivity|]. destruct (is_ext _ "manifest"); [reflexivity|]. destruct (_ || _); [reflexivity|]. destruct (is_ext _ "txn"); reflexivity.
Qed.
Lemma removable_del : forall d b i, removable (deletion_path d) b i = tracked (deletion_path d) b (rf_del (in_ref i)) (rf_del (in_ver i)).
Proof.
  intros. unfold removable. change (starts_with (joined (deletion_path d)) (lit "_versions/.tmp")) with false. change (starts_with (joined (deletion_path d)) (lit "_indices")) with false.
  change (starts_with (joined (deletion_path d)) (lit "_deletions")) with true.
  assert (A : forall a b, ~ In dot b -> after_dot (a ++ dot :: b) = Some b).
  { intros a e H. assert (Z : after_dot e = None) by (clear a; induction e as [|x t IH]; [reflexivity|]; cbn; rewrite IH by (intros X; apply H; right; exact X); destruct (N.eqb_spec x dot); [subst; contradiction H; left; reflexivity|reflexivity]).
    induction a as [|x t IH]; cbn; [rewrite Z; reflexivity|]. rewrite IH. reflexivity. }
  assert (E : extension (deletion_path d) = Some (lit (if dr_bitmap d then "bin" else "arrow"))).
  { unfold extension, deletion_path. cbn [last]. 
    replace (dec (dr_frag d) ++ 45%N :: dec (dr_version d) ++ 45%N :: dec (dr_id d) ++ dot :: lit (if dr_bitmap d then "bin" else "arrow"))
      with ((dec (dr_frag d) ++ 45%N :: dec (dr_version d) ++ 45%N :: dec (dr_id d)) ++ dot :: lit (if dr_bitmap d then "bin" else "arrow")) by (rewrite <- !app_assoc; cbn; rewrite <- app_assoc; reflexivity).
    rewrite A; destruct (dr_bitmap d); try reflexivity; vm_compute; intuition discriminate. }
  unfold is_ext. rewrite E. destruct (dr_bitmap d); reflexivity.
Qed.
Lemma removable_txn : forall f b i, removable (txn_path f) b i = is_ext (txn_path f) "txn" && tracked (txn_path f) b (rf_txn (in_ref i)) (rf_txn (in_ver i)).
Proof.
  intros. unfold removable. change (starts_with (joined (txn_path f)) (lit "_versions/.tmp")) with false. change (starts_with (joined (txn_path f)) (lit "_indices")) with false.
  change (starts_with (joined (txn_path f)) (lit "data")) with false. change (starts_with (joined (txn_path f)) (lit "_deletions")) with false.
  change (starts_with (joined (txn_path f)) (lit "_transactions")) with true.
  assert (X : forall a b : string, lit a <> lit b -> is_ext (txn_path f) a = true -> is_ext (txn_path f) b = false).
  { intros a e N. unfold is_ext. destruct (extension (txn_path f)) as [x|]; [|discriminate]. intros E. apply str_eqb_spec in E. subst x. apply not_true_is_false. intros E. apply str_eqb_spec in E. contradiction. }
  destruct (is_ext (txn_path f) "lance") eqn:E1; [rewrite (X "lance"%string "txn"%string); [reflexivity|discriminate|exact E1]|].
  destruct (is_ext (txn_path f) "manifest") eqn:E2; [rewrite (X "manifest"%string "txn"%string); [reflexivity|discriminate|exact E2]|].
  destruct (is_ext (txn_path f) "arrow") eqn:E3; [rewrite (X "arrow"%string "txn"%string); [reflexivity|discriminate|exact E3]|].
  destruct (is_ext (txn_path f) "bin") eqn:E4; [rewrite (X "bin"%string "txn"%string); [reflexivity|discriminate|exact E4]|]. cbn [orb].
  destruct (is_ext (txn_path f) "txn"); reflexivity.
Qed.
Lemma removable_index : forall u rest b i, In u (rf_uuid (in_ref i)) -> removable (lit "_indices" :: u :: rest) b i = false.
Proof.
  intros u rest b i H. unfold removable. cbn [joined].
  change (starts_with (lit "_indices" ++ 47%N :: joined (u :: rest)) (lit "_versions/.tmp")) with false. change (starts_with (lit "_indices" ++ 47%N :: joined (u :: rest)) (lit "_indices")) with true.
  cbn [nth_error]. apply has_str_In in H. rewrite H. reflexivity.
Qed.
Lemma tracked_ref : forall p b ref ver, In p ref -> tracked p b ref ver = false.
Proof. intros. unfold tracked. apply has_path_In in H. rewrite H. reflexivity. Qed.
Lemma needed_not_removable : forall c tg l i p b, process_manifests c tg l = Some i -> keeps c tg l p -> removable p b i = false.
Proof.
  intros c tg l i p b E (q & m & H & K & Nd). destruct (process_spec _ _ _ _ E) as (_ & B & _). 
  assert (W : In m (filter (working c tg) (map snd (mans l)))) by (apply in_working; exists q; auto).
  destruct Nd as [f I|d I|f I|u rest I].
  - change [lit "data"; f] with (data_path f). rewrite removable_data, tracked_ref; [apply andb_false_r|]. rewrite B. apply refs_data. exists m, f. auto.
  - rewrite removable_del. apply tracked_ref. rewrite B. apply refs_del. exists m, d. auto.
  - change [lit "_transactions"; f] with (txn_path f). rewrite removable_txn, tracked_ref; [apply andb_false_r|]. rewrite B. apply refs_txn. exists m, f. auto.
  - apply removable_index. rewrite B. apply refs_uuid. exists m. auto.
Qed.
Lemma inspect_process : forall c tg l i, inspect c tg l = Some i -> process_manifests c tg l = Some i.
Proof. intros c tg l i. unfold inspect. destruct (process_manifests c tg l) as [j|]; [|discriminate]. cbn. destruct (_ && _); [discriminate|]. auto. Qed.
(* old manifests are in _versions, where no version keeps its files *)
Lemma needs_not_manifest : forall m p, needs m p -> is_manifest p = false.
Proof.
  intros m p [f I|d I|f I|u rest I]; reflexivity.
Qed.
Lemma old_manifests : forall c tg l i p, process_manifests c tg l = Some i -> (In p (in_old i) <-> exists m, holds l p m /\ ~ kept c tg m).
Proof.
  intros c tg l i p E. destruct (process_spec _ _ _ _ E) as (A & _). rewrite A, in_map_iff. split.
  - intros [[q m] [<- I]]. apply filter_In in I. destruct I as [I W]. exists m. split; [apply mans_holds; exact I|]. intros K. apply working_kept in K. cbn in *. rewrite K in W. discriminate.
  - intros [m [H K]]. exists (p, m). split; [reflexivity|]. apply filter_In. split; [apply mans_holds; exact H|]. apply negb_true_iff, not_true_is_false. intros X. apply K, working_kept, X.
Qed.
Definition unique_paths (l : dir) : Prop := NoDup (map fst l).
Lemma holds_fun : forall l p m m', unique_paths l -> holds l p m -> holds l p m' -> m = m'.
Proof.
  intros l p m m' U [o [I [_ E]]] [o' [I' [_ E']]]. assert (o = o'); [|congruence]. clear -U I I'. unfold unique_paths in U.
  induction l as [|[q x] t IH]; [contradiction|]. inversion U as [|? ? N1 N2]; subst. cbn in N1.
  destruct I as [Q|I], I' as [Q'|I'].
  - congruence.
  - injection Q as <- <-. exfalso. apply N1, in_map_iff. exists (q, o'). auto.
  - injection Q' as <- <-. exfalso. apply N1, in_map_iff. exists (q, o). auto.
  - auto.
Qed.
(* a manifest in the listing is never removed as an ordinary file, unless it is called .tmp... *)
Lemma manifest_not_removable : forall p b i, is_manifest p = true -> starts_with (joined p) (lit "_versions/.tmp") = false -> removable p b i = false.
Proof.
  intros p b i M T. unfold removable. rewrite T. destruct p as [|d [|f t]]; try discriminate. unfold is_manifest in M. apply andb_prop in M. destruct M as [M1 M2]. apply str_eqb_spec in M1. subst d.
  change (starts_with (joined (lit "_versions" :: f :: t)) (lit "_indices")) with false.
  assert (X : forall a, lit a <> lit "manifest" -> is_ext (lit "_versions" :: f :: t) a = false).
  { intros a N. unfold is_ext in *. destruct (extension (lit "_versions" :: f :: t)) as [x|]; [|discriminate]. apply str_eqb_spec in M2. subst x. apply not_true_is_false. intros E. apply str_eqb_spec in E. congruence. }
  rewrite (X "lance"%string) by discriminate. rewrite M2. reflexivity.
Qed.

(** * C46: whatever subset of the removals has happened, kept versions are whole *)
(* [l]: the directory when the manifests were listed; [l']: when the files are listed *)
Theorem kept_files_survive : forall c tg l i l' now p, inspect c tg l = Some i -> keeps c tg l p -> ~ In p (removals c now i l').
Proof.
  intros c tg l i l' now p E K H. apply inspect_process in E. apply in_app_iff in H. destruct H as [H|H].
  - unfold listed_removals in H. apply in_map_iff in H. destruct H as [[q o] [<- H]]. apply filter_In in H. destruct H as [_ H]. cbn in H. rewrite (needed_not_removable c tg l i q _ E K) in H. rewrite andb_false_r in H. discriminate.
  - apply (old_manifests _ _ _ _ _ E) in H. destruct H as [m [[o [_ [M _]]] _]]. destruct K as (q & m' & _ & _ & Nd). rewrite (needs_not_manifest m' p Nd) in M. discriminate.
Qed.
Theorem kept_manifests_survive : forall c tg l i l' now p m, unique_paths l -> inspect c tg l = Some i -> holds l p m -> kept c tg m ->
  starts_with (joined p) (lit "_versions/.tmp") = false -> ~ In p (removals c now i l').
Proof.
  intros c tg l i l' now p m U E H K T X. apply inspect_process in E. apply in_app_iff in X. destruct X as [X|X].
  - unfold listed_removals in X. apply in_map_iff in X. destruct X as [[q o] [<- X]]. apply filter_In in X. destruct X as [_ X]. cbn in X, H, T. destruct H as [o' [_ [M _]]].
    rewrite (manifest_not_removable q _ i M T), andb_false_r in X. discriminate.
  - apply (old_manifests _ _ _ _ _ E) in X. destruct X as [m' [H' K']]. apply K'. rewrite (holds_fun l p m' m U H' H). exact K.
Qed.
(* a run that stops after removing any of its paths *)
Definition stopped (ps done : list path) : Prop := incl done ps.
Lemma survives : forall ps done l e, stopped ps done -> In e l -> ~ In (fst e) ps -> In e (remove_all done l).
Proof.
  intros ps done l e S I N. unfold remove_all. apply filter_In. split; [exact I|]. apply negb_true_iff, not_true_is_false. intros X. apply has_path_In in X. apply N, S, X.
Qed.
Theorem cleanup_safe : forall c tg l i now done, unique_paths l -> inspect c tg l = Some i -> stopped (removals c now i l) done ->
  forall q m, holds l q m -> kept c tg m -> starts_with (joined q) (lit "_versions/.tmp") = false ->
  holds (remove_all done l) q m /\ forall p o, needs m p -> In (p, o) l -> In (p, o) (remove_all done l).
Proof.
  intros c tg l i now done U E S q m H K T. split.
  - pose proof (kept_manifests_survive c tg l i l now q m U E H K T) as N. destruct H as [o [I [M F]]]. exists o. split; [|auto]. eapply survives; [exact S|exact I|exact N].
  - intros p o Nd I. eapply survives; [exact S|exact I|]. apply (kept_files_survive c tg l i l now p E). exists q, m. auto.
Qed.

(** * C47: files no manifest refers to are left alone while young *)
(* the directories a dataset keeps its files in *)
Definition in_layout (p : path) : Prop := In (hd [] p) [lit "data"; lit "_deletions"; lit "_transactions"; lit "_indices"; lit "_versions"].
Lemma removable_needs : forall c tg l i p, process_manifests c tg l = Some i -> in_layout p -> removable p true i = true ->
  exists q m, holds l q m /\ ~ kept c tg m /\ needs m p.
Proof.
  intros c tg l i p E LA R. destruct (process_spec _ _ _ _ E) as (_ & _ & C & _). unfold removable in R.
  assert (OLD : forall m, In m (filter (fun m => negb (working c tg m)) (map snd (mans l))) -> needs m p -> exists q m, holds l q m /\ ~ kept c tg m /\ needs m p).
  { intros m I Nd. apply in_old_ms in I. destruct I as [q [H K]]. exists q, m. auto. }
  assert (BY : (if is_ext p "lance" then if starts_with (joined p) (lit "data") then tracked p true (rf_data (in_ref i)) (rf_data (in_ver i)) else false
    else if is_ext p "manifest" then false
    else if is_ext p "arrow" || is_ext p "bin" then if starts_with (joined p) (lit "_deletions") then tracked p true (rf_del (in_ref i)) (rf_del (in_ver i)) else false
    else if is_ext p "txn" then if starts_with (joined p) (lit "_transactions") then tracked p true (rf_txn (in_ref i)) (rf_txn (in_ver i)) else false
    else false) = true -> exists q m, holds l q m /\ ~ kept c tg m /\ needs m p).
  { clear R. intros R. unfold tracked in R. cbn [negb orb] in R.
    destruct (is_ext p "lance"); [destruct (starts_with _ _); [|discriminate]; destruct (has_path p (rf_data (in_ref i))); [discriminate|]; apply has_path_In in R; rewrite C in R; apply refs_data in R; destruct R as (m & f & I & J & ->); apply (OLD m I); apply n_data; exact J|].
    destruct (is_ext p "manifest"); [discriminate|].
    destruct (_ || _); [destruct (starts_with _ _); [|discriminate]; destruct (has_path p (rf_del (in_ref i))); [discriminate|]; apply has_path_In in R; rewrite C in R; apply refs_del in R; destruct R as (m & d & I & J & ->); apply (OLD m I); apply n_del; exact J|].
    destruct (is_ext p "txn"); [|discriminate]. destruct (starts_with _ _); [|discriminate]; destruct (has_path p (rf_txn (in_ref i))); [discriminate|]; apply has_path_In in R; rewrite C in R; apply refs_txn in R; destruct R as (m & d & I & J & ->); apply (OLD m I); apply n_txn; exact J. }
  destruct (starts_with (joined p) (lit "_versions/.tmp")); [discriminate|]. destruct (starts_with (joined p) (lit "_indices")) eqn:SI; [|apply BY; exact R].
  destruct p as [|d [|u rest]]; try discriminate. cbn [nth_error] in R. destruct (has_str u (rf_uuid (in_ref i))); [discriminate|]. cbn [negb orb] in R. destruct (has_str u (rf_uuid (in_ver i))) eqn:V; [|apply BY; exact R].
  apply has_str_In in V. rewrite C in V. apply refs_uuid in V. destruct V as (m & I & J). apply (OLD m I).
  replace d with (lit "_indices"); [apply n_index; exact J|].
  unfold in_layout in LA. cbn [hd In] in LA. clear BY OLD R.
  destruct LA as [<-|[<-|[<-|[<-|[<-|[]]]]]]; first [reflexivity|exfalso; cbn [joined] in SI; discriminate SI].
Qed.
Theorem young_files_kept : forall c tg l i l' now p, ct_unverified c = false -> inspect c tg l = Some i ->
  (forall o, In (p, o) l' -> young now (ob_time o)) -> in_layout p ->
  In p (removals c now i l') -> exists q m, holds l q m /\ ~ kept c tg m /\ (needs m p \/ p = q).
Proof.
  intros c tg l i l' now p U E Y LA H. apply inspect_process in E. apply in_app_iff in H. destruct H as [H|H].
  - unfold listed_removals in H. apply in_map_iff in H. destruct H as [[q o] [<- H]]. apply filter_In in H. destruct H as [I H]. apply andb_prop in H. destruct H as [_ H]. cbn in H.
    replace (in_progress c now o) with true in H; [destruct (removable_needs c tg l i q E LA H) as (r & m & X & Y1 & Y2); exists r, m; auto|].
    unfold in_progress. rewrite U. symmetry. apply Z.leb_le. apply (Y o I).
  - apply (old_manifests _ _ _ _ _ E) in H. destruct H as [m [X Y1]]. exists p, m. auto.
Qed.
(* whatever a cleanup removes: unless it is an old manifest, it was modified before the cutoff *)
Theorem removed_before : forall c tg l i l' now p, inspect c tg l = Some i -> In p (removals c now i l') ->
  (exists o, In (p, o) l' /\ ob_time o < ct_before c) \/ exists m, holds l p m /\ ~ kept c tg m.
Proof.
  intros c tg l i l' now p E H. apply inspect_process in E. apply in_app_iff in H. destruct H as [H|H].
  - left. unfold listed_removals in H. apply in_map_iff in H. destruct H as [[q o] [<- H]]. apply filter_In in H. destruct H as [I H]. apply andb_prop in H. destruct H as [H _]. exists o. split; [exact I|apply Z.ltb_lt; exact H].
  - right. apply (old_manifests _ _ _ _ _ E) in H. exact H.
Qed.

(** * C48: the error for tagged versions *)
Theorem error_iff : forall c tg l, (forall p o, In (p, o) l -> is_manifest p = true -> ob_man o <> None) ->
  (inspect c tg l = None <-> ct_error c = true /\ exists q m, holds l q m /\ In (mi_version m) tg).
Proof.
  intros c tg l R.
  assert (P : exists i, process_manifests c tg l = Some i).
  { clear -R. induction l as [|[p o] t IH]; [eexists; reflexivity|]. destruct IH as [i E]; [intros q x I; apply (R q x); right; exact I|]. cbn. rewrite E. cbn. destruct (is_manifest p) eqn:M; [|eauto].
    unfold process_manifest_file. cbn. destruct (ob_man o) eqn:F; [eauto|]. exfalso. apply (R p o); [left; reflexivity|exact M|exact F]. }
  destruct P as [i E]. unfold inspect. rewrite E. cbn [obind]. destruct (process_spec _ _ _ _ E) as (_ & _ & _ & D). 
  assert (T : in_tagged i <> [] <-> exists q m, holds l q m /\ In (mi_version m) tg).
  { rewrite D. split.
    - intros N. destruct (filter _ _) as [|v t] eqn:F; [congruence|]. assert (I : In v (v :: t)) by (left; reflexivity). rewrite <- F in I. apply filter_In in I. destruct I as [I M]. apply memN_In in M. apply in_map_iff in I. destruct I as [[q m] [<- I]]. exists q, m. split; [apply mans_holds; exact I|exact M].
    - intros (q & m & H & I) X. assert (Y : In (mi_version m) (filter (fun v => memN v tg) (map (fun e => mi_version (snd e)) (mans l)))); [|rewrite X in Y; contradiction].
      apply filter_In. split; [apply in_map_iff; exists (q, m); split; [reflexivity|apply mans_holds; exact H]|apply memN_In; exact I]. }
  rewrite <- T. destruct (in_tagged i); cbn [negb]; [rewrite andb_false_r|rewrite andb_true_r]; [split; [discriminate|intros [_ X]; congruence]|].
  destruct (ct_error c); split; try discriminate; intuition discriminate.
Qed.
(* what the flag promises: an error exactly when a tagged version would otherwise have been removed *)
Definition old_tagged (c : ctask) (tg : list N) (l : dir) : Prop :=
  exists q m, holds l q m /\ In (mi_version m) tg /\ ~ kept c [] m.
Theorem old_tagged_errors : forall c tg l, ct_error c = true -> old_tagged c tg l -> inspect c tg l = None.
Proof.
  intros c tg l E (q & m & H & I & _). unfold inspect. destruct (process_manifests c tg l) as [i|] eqn:P; [|reflexivity]. cbn [obind]. rewrite E. cbn [andb].
  destruct (process_spec _ _ _ _ P) as (_ & _ & _ & D). destruct (in_tagged i) eqn:T; [|reflexivity]. exfalso.
  assert (Y : In (mi_version m) (in_tagged i)); [|rewrite T in Y; contradiction]. rewrite T, D, filter_In. split; [apply in_map_iff; exists (q, m); split; [reflexivity|apply mans_holds; exact H]|apply memN_In; exact I].
Qed.

(** * What a complete run leaves *)
Definition classed (p : path) : Prop :=
  (exists f, p = data_path f /\ is_ext p "lance" = true) \/
  (hd [] p = lit "_deletions" /\ List.length p <> 1%nat /\ (is_ext p "arrow" = true \/ is_ext p "bin" = true)) \/
  (exists f, p = txn_path f /\ is_ext p "txn" = true) \/
  (exists u rest, p = lit "_indices" :: u :: rest).
Theorem complete_run : forall c tg now l l', cleanup c tg now l = Some l' ->
  forall p o, In (p, o) l' ->
    (classed p -> ct_before c <= ob_time o \/ (ct_unverified c = false /\ young now (ob_time o)) \/ keeps c tg l p) /\
    forall m, is_manifest p = true -> ob_man o = Some m -> kept c tg m.
Proof.
  intros c tg now l l' E p o I. unfold cleanup in E. destruct (inspect c tg l) as [i|] eqn:S; [|discriminate]. injection E as <-. apply inspect_process in S.
  unfold remove_all in I. apply filter_In in I. destruct I as [I R]. apply negb_true_iff in R. cbn [fst] in R.
  assert (NR : ~ In p (removals c now i l)) by (intros X; apply has_path_In in X; congruence).
  split.
  - intros CL. destruct (Z_lt_ge_dec (ob_time o) (ct_before c)) as [B|B]; [|left; lia]. right. destruct (in_progress c now o) eqn:IP;
      [left; unfold in_progress in IP; apply andb_prop in IP; destruct IP as [P1 P2]; apply negb_true_iff in P1; apply Z.leb_le in P2; split; assumption|right].
    assert (F : removable p false i = false).
    { apply not_true_is_false. intros X. apply NR, in_app_iff. left. unfold listed_removals. apply in_map_iff. exists (p, o). split; [reflexivity|]. apply filter_In. split; [exact I|]. cbn. apply andb_true_iff. split; [apply Z.ltb_lt; exact B|]. rewrite IP. exact X. }
    destruct (process_spec _ _ _ _ S) as (_ & B' & _).
    assert (OK : forall m, In m (filter (working c tg) (map snd (mans l))) -> needs m p -> keeps c tg l p).
    { intros m J Nd. apply in_working in J. destruct J as [q [H K]]. exists q, m. auto. }
    destruct CL as [(f & -> & X)|[(D & L & X)|[(f & -> & X)|(u & rest & ->)]]].
    + rewrite removable_data, X in F. unfold tracked in F. destruct (has_path (data_path f) (rf_data (in_ref i))) eqn:HP; [|discriminate]. apply has_path_In in HP. rewrite B' in HP. apply refs_data in HP. destruct HP as (m & g & J & K & Q). apply (OK m J). rewrite Q. apply n_data. exact K.
    + destruct p as [|d [|x t]]; [discriminate|contradiction L; reflexivity|]. cbn [hd] in D. subst d. unfold removable in F.
      change (starts_with (joined (lit "_deletions" :: x :: t)) (lit "_versions/.tmp")) with false in F. change (starts_with (joined (lit "_deletions" :: x :: t)) (lit "_indices")) with false in F.
      change (starts_with (joined (lit "_deletions" :: x :: t)) (lit "_deletions")) with true in F.
      assert (N : forall a, lit a <> lit "arrow" -> lit a <> lit "bin" -> is_ext (lit "_deletions" :: x :: t) a = false).
      { intros a N1 N2. unfold is_ext in *. destruct (extension _) as [e|]; [|reflexivity]. apply not_true_is_false. intros Q. apply str_eqb_spec in Q. subst e. destruct X as [X|X]; apply str_eqb_spec in X; contradiction. }
      rewrite (N "lance"%string), (N "manifest"%string) in F by discriminate. replace (_ || _) with true in F by (symmetry; apply orb_true_iff; exact X).
      unfold tracked in F. destruct (has_path (lit "_deletions" :: x :: t) (rf_del (in_ref i))) eqn:HP; [|discriminate]. apply has_path_In in HP. rewrite B' in HP. apply refs_del in HP. destruct HP as (m & g & J & K & Q). apply (OK m J). rewrite Q. apply n_del. exact K.
    + rewrite removable_txn, X in F. unfold tracked in F. destruct (has_path (txn_path f) (rf_txn (in_ref i))) eqn:HP; [|discriminate]. apply has_path_In in HP. rewrite B' in HP. apply refs_txn in HP. destruct HP as (m & g & J & K & Q). apply (OK m J). rewrite Q. apply n_txn. exact K.
    + unfold removable in F. change (starts_with (joined (lit "_indices" :: u :: rest)) (lit "_versions/.tmp")) with false in F. change (starts_with (joined (lit "_indices" :: u :: rest)) (lit "_indices")) with true in F. cbn [nth_error] in F.
      destruct (has_str u (rf_uuid (in_ref i))) eqn:HS; [|discriminate]. apply has_str_In in HS. rewrite B' in HS. apply refs_uuid in HS. destruct HS as (m & J & K). apply (OK m J). apply n_index. exact K.
  - intros m M F. destruct (working c tg m) eqn:W; [apply working_kept; exact W|]. exfalso. apply NR, in_app_iff. right. apply (old_manifests _ _ _ _ _ S). exists m. split; [exists o; auto|]. intros K. apply working_kept in K. congruence.
Qed.

(** * Interrupted runs *)
Definition no_tmp (l : dir) : Prop := forall p o, In (p, o) l -> is_manifest p = true -> starts_with (joined p) (lit "_versions/.tmp") = false.
Lemma process_some : forall c tg l i l', process_manifests c tg l = Some i -> incl l' l -> exists j, process_manifests c tg l' = Some j.
Proof.
  intros c tg l i l' E S.
  assert (R : forall p o, In (p, o) l -> is_manifest p = true -> ob_man o <> None).
  { clear S. revert i E. induction l as [|[q x] t IH]; intros i E p o I M; [contradiction|]. cbn in E. destruct (process_manifests c tg t) as [j|] eqn:P; [|discriminate]. cbn in E. destruct I as [[= -> ->]|I].
    - rewrite M in E. unfold process_manifest_file in E. cbn in E. destruct (ob_man o); [discriminate|discriminate E].
    - apply (IH j eq_refl p o I M). }
  clear E. induction l' as [|[q x] t IH]; [eexists; reflexivity|]. destruct IH as [j P]; [intros e I; apply S; right; exact I|]. cbn. rewrite P. cbn. destruct (is_manifest q) eqn:M; [|eauto].
  unfold process_manifest_file. cbn. destruct (ob_man x) eqn:F; [eauto|]. exfalso. apply (R q x); [apply S; left; reflexivity|exact M|exact F].
Qed.
Lemma has_str_ext : forall a b x, (In x a <-> In x b) -> has_str x a = has_str x b.
Proof. intros a b x H. apply eq_true_iff_eq. rewrite !has_str_In. exact H. Qed.
Lemma has_path_ext : forall a b x, (In x a <-> In x b) -> has_path x a = has_path x b.
Proof. intros a b x H. apply eq_true_iff_eq. rewrite !has_path_In. exact H. Qed.
Definition refs_equiv (a b : refs) : Prop := forall x u, (In x (rf_data a) <-> In x (rf_data b)) /\ (In x (rf_del a) <-> In x (rf_del b)) /\ (In x (rf_txn a) <-> In x (rf_txn b)) /\ (In u (rf_uuid a) <-> In u (rf_uuid b)).
Definition refs_incl (a b : refs) : Prop := incl (rf_data a) (rf_data b) /\ incl (rf_del a) (rf_del b) /\ incl (rf_txn a) (rf_txn b) /\ incl (rf_uuid a) (rf_uuid b).
Lemma refs_of_incl : forall a b, incl a b -> refs_incl (refs_of a) (refs_of b).
Proof.
  intros a b S. repeat split; intros x; [rewrite !refs_data; intros (m & f & I & J)|rewrite !refs_del; intros (m & f & I & J)|rewrite !refs_txn; intros (m & f & I & J)|rewrite !refs_uuid; intros (m & I & J)];
  [exists m, f|exists m, f|exists m, f|exists m]; auto.
Qed.
Lemma removable_mono : forall p b i j, refs_incl (in_ref i) (in_ref j) -> refs_incl (in_ver j) (in_ver i) -> removable p b j = true -> removable p b i = true.
Proof.
  intros p b i j (A1 & A2 & A3 & A4) (B1 & B2 & B3 & B4).
  assert (T : forall r v r' v', incl r r' -> incl v' v -> tracked p b r' v' = true -> tracked p b r v = true).
  { intros r v r' v' R V. unfold tracked. destruct (has_path p r') eqn:E; [discriminate|]. destruct (has_path p r) eqn:F; [apply has_path_In in F; apply R, has_path_In in F; congruence|].
    rewrite !orb_true_iff, !has_path_In. intuition. }
  unfold removable. destruct (starts_with (joined p) (lit "_versions/.tmp")); [auto|].
  assert (BY : (if is_ext p "lance" then if starts_with (joined p) (lit "data") then tracked p b (rf_data (in_ref j)) (rf_data (in_ver j)) else false
    else if is_ext p "manifest" then false
    else if is_ext p "arrow" || is_ext p "bin" then if starts_with (joined p) (lit "_deletions") then tracked p b (rf_del (in_ref j)) (rf_del (in_ver j)) else false
    else if is_ext p "txn" then if starts_with (joined p) (lit "_transactions") then tracked p b (rf_txn (in_ref j)) (rf_txn (in_ver j)) else false else false) = true ->
    (if is_ext p "lance" then if starts_with (joined p) (lit "data") then tracked p b (rf_data (in_ref i)) (rf_data (in_ver i)) else false
    else if is_ext p "manifest" then false
    else if is_ext p "arrow" || is_ext p "bin" then if starts_with (joined p) (lit "_deletions") then tracked p b (rf_del (in_ref i)) (rf_del (in_ver i)) else false
    else if is_ext p "txn" then if starts_with (joined p) (lit "_transactions") then tracked p b (rf_txn (in_ref i)) (rf_txn (in_ver i)) else false else false) = true).
  { destruct (is_ext p "lance"); [destruct (starts_with _ _); [apply T; assumption|auto]|]. destruct (is_ext p "manifest"); [auto|]. destruct (_ || _); [destruct (starts_with _ _); [apply T; assumption|auto]|]. destruct (is_ext p "txn"); [|auto]. destruct (starts_with _ _); [apply T; assumption|auto]. }
  destruct (starts_with (joined p) (lit "_indices")); [|exact BY]. destruct (nth_error p 1) as [u|]; [|auto].
  destruct (has_str u (rf_uuid (in_ref j))) eqn:E; [discriminate|]. destruct (has_str u (rf_uuid (in_ref i))) eqn:F; [apply has_str_In in F; apply A4, has_str_In in F; congruence|].
  destruct (negb b); [auto|]. cbn [orb]. destruct (has_str u (rf_uuid (in_ver j))) eqn:G; destruct (has_str u (rf_uuid (in_ver i))) eqn:H; auto. apply has_str_In in G. apply B4, has_str_In in G. congruence.
Qed.
Lemma holds_remove : forall done l q m, holds (remove_all done l) q m <-> holds l q m /\ ~ In q done.
Proof.
  intros done l q m. unfold holds, remove_all. split.
  - intros [o [I [M F]]]. apply filter_In in I. destruct I as [I R]. split; [exists o; auto|]. intros X. apply has_path_In in X. cbn in R. rewrite X in R. discriminate.
  - intros [[o [I [M F]]] N]. exists o. split; [|auto]. apply filter_In. split; [exact I|]. apply negb_true_iff, not_true_is_false. intros X. apply has_path_In in X. contradiction.
Qed.
Lemma remove_all_twice : forall a b l, remove_all b (remove_all a l) = remove_all (a ++ b) l.
Proof.
  intros a b l. unfold remove_all. induction l as [|e t IH]; [reflexivity|]. cbn [filter].
  replace (has_path (fst e) (a ++ b)) with (has_path (fst e) a || has_path (fst e) b) by (unfold has_path; rewrite existsb_app; reflexivity).
  destruct (has_path (fst e) a); cbn [negb orb]; [exact IH|]. cbn [filter]. destruct (has_path (fst e) b); cbn [negb]; rewrite IH; reflexivity.
Qed.
Lemma remove_all_ext : forall a b l, (forall e, In e l -> (In (fst e) a <-> In (fst e) b)) -> remove_all a l = remove_all b l.
Proof.
  intros a b l H. unfold remove_all. apply filter_ext_in'. intros e I. f_equal. apply has_path_ext. apply H. exact I.
Qed.
(* removing files first and manifests last, stopping anywhere, and starting over ends the same way *)
Lemma rerun : forall c tg l i now done, unique_paths l -> no_tmp l -> inspect c tg l = Some i -> incl done (removals c now i l) ->
  (incl done (listed_removals c now i l) \/ incl (listed_removals c now i l) done \/ ct_unverified c = true) ->
  cleanup c tg now (remove_all done l) = Some (remove_all (removals c now i l) l).
Proof.
  intros c tg l i now done U NT E S ORD. pose proof (inspect_process _ _ _ _ E) as P.
  assert (SUB : incl (remove_all done l) l) by (intros e I; apply filter_In in I; apply I).
  destruct (process_some c tg l i _ P SUB) as [j Q]. unfold cleanup.
  assert (ND : forall q m, holds l q m -> kept c tg m -> ~ In q done).
  { intros q m H K X. apply S in X. revert X. apply (kept_manifests_survive c tg l i l now q m U E H K). destruct H as [o [I [M _]]]. apply (NT q o I M). }
  assert (IS : inspect c tg (remove_all done l) = Some j).
  { unfold inspect in *. rewrite P in E. rewrite Q. cbn [obind] in *. destruct (ct_error c); [|reflexivity]. cbn [andb] in *.
    destruct (process_spec _ _ _ _ P) as (_ & _ & _ & D). destruct (process_spec _ _ _ _ Q) as (_ & _ & _ & D').
    destruct (in_tagged i) eqn:TI; [|discriminate]. destruct (in_tagged j) as [|v t] eqn:TJ; [reflexivity|]. exfalso.
    assert (I : In v (v :: t)) by (left; reflexivity). rewrite D' in I. apply filter_In in I. destruct I as [I M]. apply in_map_iff in I. destruct I as [[q m] [V I]]. apply mans_holds, holds_remove in I. destruct I as [I _].
    assert (X : In v []); [|contradiction]. rewrite D. apply filter_In. split; [apply in_map_iff; exists (q, m); split; [exact V|apply mans_holds; exact I]|exact M]. }
  rewrite IS. cbn [obind]. f_equal. rewrite remove_all_twice. apply remove_all_ext. intros [p o] I. cbn [fst].
  destruct (process_spec _ _ _ _ P) as (_ & RI & VI & _). destruct (process_spec _ _ _ _ Q) as (_ & RJ & VJ & _).
  assert (R1 : refs_incl (in_ref i) (in_ref j)).
  { rewrite RI, RJ. apply refs_of_incl. intros m J. apply in_working in J. destruct J as [q [H K]]. apply in_working. exists q. split; [|exact K]. apply holds_remove. split; [exact H|]. eapply ND; eassumption. }
  assert (R2 : refs_incl (in_ref j) (in_ref i)).
  { rewrite RI, RJ. apply refs_of_incl. intros m J. apply in_working in J. destruct J as [q [H K]]. apply in_working. exists q. split; [|exact K]. apply holds_remove in H. apply H. }
  assert (V1 : refs_incl (in_ver j) (in_ver i)).
  { rewrite VI, VJ. apply refs_of_incl. intros m J. apply in_old_ms in J. destruct J as [q [H K]]. apply in_old_ms. exists q. split; [|exact K]. apply holds_remove in H. apply H. }
  assert (MONO : forall q b, removable q b j = true -> removable q b i = true) by (intros q b; apply removable_mono; assumption).
  rewrite in_app_iff. unfold removals. rewrite !in_app_iff. split.
  - intros [X|[X|X]].
    + apply S in X. apply in_app_iff in X. exact X.
    + left. unfold listed_removals in *. apply in_map_iff in X. destruct X as [e [<- X]]. apply in_map_iff. exists e. split; [reflexivity|]. apply filter_In in X. destruct X as [X Y]. apply filter_In. split; [apply SUB; exact X|]. apply andb_prop in Y. destruct Y as [Y1 Y2]. rewrite Y1. cbn [andb]. apply MONO. exact Y2.
    + right. apply (old_manifests _ _ _ _ _ Q) in X. destruct X as [m [H K]]. apply (old_manifests _ _ _ _ _ P). exists m. split; [apply holds_remove in H; apply H|exact K].
  - destruct (in_dec (list_eq_dec (list_eq_dec N.eq_dec)) p done) as [D|D]; [left; exact D|]. intros [X|X].
    + right. left. destruct ORD as [ORD|[ORD|ORD]]; [|exfalso; apply D, ORD, X|].
      * assert (V2 : refs_incl (in_ver i) (in_ver j)).
        { rewrite VI, VJ. apply refs_of_incl. intros m J. apply in_old_ms in J. destruct J as [q [H K]]. apply in_old_ms. exists q. split; [|exact K]. apply holds_remove. split; [exact H|]. intros Y. apply ORD in Y. unfold listed_removals in Y. apply in_map_iff in Y. destruct Y as [[q' x] [<- Y]]. apply filter_In in Y. destruct Y as [Y1 Y2]. cbn in *. destruct H as [o' [I' [M _]]]. cbn in *.
          rewrite (manifest_not_removable q' _ i M (NT q' x Y1 M)), andb_false_r in Y2. discriminate. }
        unfold listed_removals in *. apply in_map_iff in X. destruct X as [e [<- X]]. apply in_map_iff. exists e. split; [reflexivity|]. apply filter_In in X. destruct X as [X Y]. apply filter_In. split; [unfold remove_all; apply filter_In; split; [exact X|]; apply negb_true_iff, not_true_is_false; intros Z; apply has_path_In in Z; contradiction|].
        apply andb_prop in Y. destruct Y as [Y1 Y2]. rewrite Y1. cbn [andb]. revert Y2. apply removable_mono; assumption.
      * unfold listed_removals in *. apply in_map_iff in X. destruct X as [e [<- X]]. apply in_map_iff. exists e. split; [reflexivity|]. apply filter_In in X. destruct X as [X Y]. apply filter_In. split; [unfold remove_all; apply filter_In; split; [exact X|]; apply negb_true_iff, not_true_is_false; intros Z; apply has_path_In in Z; contradiction|].
        apply andb_prop in Y. destruct Y as [Y1 Y2]. rewrite Y1. cbn [andb]. unfold in_progress in *. rewrite ORD in *. cbn [negb andb] in *. revert Y2. clear -R2. destruct R2 as (A1 & A2 & A3 & A4).
        assert (T : forall r v r' v', incl r r' -> tracked (fst e) false r' v' = true -> tracked (fst e) false r v = true).
        { intros r v r' v' R. unfold tracked. destruct (has_path (fst e) r') eqn:E; [discriminate|]. destruct (has_path (fst e) r) eqn:F; [apply has_path_In in F; apply R, has_path_In in F; congruence|]. reflexivity. }
        unfold removable. destruct (starts_with _ (lit "_versions/.tmp")); [auto|]. destruct (starts_with _ (lit "_indices")).
        -- destruct (nth_error (fst e) 1) as [u|]; [|auto]. destruct (has_str u (rf_uuid (in_ref i))) eqn:E; [discriminate|]. destruct (has_str u (rf_uuid (in_ref j))) eqn:F; [apply has_str_In in F; apply A4, has_str_In in F; congruence|]. reflexivity.
        -- destruct (is_ext _ "lance"); [destruct (starts_with _ _); [apply T; assumption|auto]|]. destruct (is_ext _ "manifest"); [auto|]. destruct (_ || _); [destruct (starts_with _ _); [apply T; assumption|auto]|]. destruct (is_ext _ "txn"); [|auto]. destruct (starts_with _ _); [apply T; assumption|auto].
    + right. right. apply (old_manifests _ _ _ _ _ P) in X. destruct X as [m [H K]]. apply (old_manifests _ _ _ _ _ Q). exists m. split; [apply holds_remove; auto|exact K].
Qed.
Theorem restart_in_order : forall c tg l i now done rest, unique_paths l -> no_tmp l -> inspect c tg l = Some i -> removals c now i l = done ++ rest ->
  cleanup c tg now (remove_all done l) = cleanup c tg now l.
Proof.
  intros c tg l i now done rest U NT E S. rewrite (rerun c tg l i now done U NT E).
  - unfold cleanup. rewrite E. reflexivity.
  - rewrite S. apply incl_appl, incl_refl.
  - assert (A : forall (x y u v : list path), x ++ y = u ++ v -> incl u x \/ incl x u).
    { induction x as [|a t IH]; intros y u v H; [right; intros ? []|]. destruct u as [|b u']; [left; intros ? []|]. injection H as -> H. destruct (IH _ _ _ H) as [G|G]; [left|right]; intros z [Z|Z]; [left; exact Z|right; apply G; exact Z|left; exact Z|right; apply G; exact Z]. }
    unfold removals in S. destruct (A _ _ _ _ S) as [G|G]; auto.
Qed.
Theorem restart_unverified : forall c tg l i now done, unique_paths l -> no_tmp l -> ct_unverified c = true -> inspect c tg l = Some i -> incl done (removals c now i l) ->
  cleanup c tg now (remove_all done l) = cleanup c tg now l.
Proof. intros c tg l i now done U NT V E S. rewrite (rerun c tg l i now done U NT E S); [unfold cleanup; rewrite E; reflexivity|auto]. Qed.

(** * A commit while cleanup runs *)
(* [l]: when the manifests were read; [l']: when the files are listed *)
Theorem concurrent_commit : forall c tg l i l' now m, inspect c tg l = Some i ->
  (forall p, needs m p -> keeps c tg l p \/
     (~ referenced l p /\ forall o, In (p, o) l' -> ct_before c <= ob_time o \/ (ct_unverified c = false /\ young now (ob_time o)))) ->
  forall p, needs m p -> ~ In p (removals c now i l').
Proof.
  intros c tg l i l' now m E H p Nd X. destruct (H p Nd) as [K|[NR K]]; [exact (kept_files_survive c tg l i l' now p E K X)|].
  apply inspect_process in E. apply in_app_iff in X. destruct X as [X|X].
  - unfold listed_removals in X. apply in_map_iff in X. destruct X as [[q o] [<- X]]. cbn [fst] in *. apply filter_In in X. destruct X as [I X]. cbn in X. apply andb_prop in X. destruct X as [X1 X2]. apply Z.ltb_lt in X1.
    destruct (K o I) as [K1|[K1 K2]]; [lia|]. replace (in_progress c now o) with true in X2; [|unfold in_progress; rewrite K1; symmetry; apply Z.leb_le; exact K2].
    destruct (removable_needs c tg l i q E) as (r & m' & A & _ & B); [destruct Nd; unfold in_layout; cbn [hd In]; auto 10|exact X2|]. apply NR. exists r, m'. auto.
  - apply (old_manifests _ _ _ _ _ E) in X. destruct X as [m' [[o [_ [M _]]] _]]. rewrite (needs_not_manifest m p Nd) in M. discriminate.
Qed.

(** * Examples and refutations *)
Definition day : Z := 86400 * 1000000000.
Definition mk (v : N) (t : Z) (fs : list string) (ds : list delref) (tx : string) (us : list string) : minfo :=
  {| mi_version := v; mi_time := t; mi_data := map lit fs; mi_dels := ds; mi_txn := Some (lit tx); mi_uuids := map lit us |}.
Definition file (t : Z) : obj := {| ob_time := t; ob_man := None |}.
Definition man (m : minfo) : obj := {| ob_time := mi_time m; ob_man := Some m |}.
Definition vpath (n : string) : path := [lit "_versions"; lit n].
Definition d0 : delref := {| dr_frag := 0; dr_version := 1; dr_id := 7; dr_bitmap := false |}.
Definition m1 : minfo := mk 1 (100 * day) ["a.lance"%string; "b.lance"%string] [] "1.txn" ["u1"%string].
Definition m2 : minfo := mk 2 (101 * day) ["b.lance"%string] [d0] "2.txn" ["u2"%string].
Definition ldir : dir :=
  [([lit "data"; lit "a.lance"], file (100 * day)); ([lit "data"; lit "b.lance"], file (100 * day)); ([lit "data"; lit "c.lance"], file (119 * day));
   ([lit "_indices"; lit "u1"; lit "index.idx"], file (100 * day)); ([lit "_indices"; lit "u2"; lit "index.idx"], file (101 * day));
   (deletion_path d0, file (101 * day)); ([lit "_transactions"; lit "1.txn"], file (100 * day)); ([lit "_transactions"; lit "2.txn"], file (101 * day));
   (vpath "1.manifest", man m1); (vpath "2.manifest", man m2)].
Definition task2 : ctask := {| ct_version := 2; ct_before := 120 * day; ct_unverified := false; ct_error := true |}.
Definition paths (o : option dir) : option (list path) := option_map (map fst) o.
Example cleanup_example : paths (cleanup task2 [] (121 * day) ldir) =
  Some [[lit "data"; lit "b.lance"]; [lit "data"; lit "c.lance"]; [lit "_indices"; lit "u2"; lit "index.idx"]; deletion_path d0; [lit "_transactions"; lit "2.txn"]; vpath "2.manifest"].
Proof. vm_compute. reflexivity. Qed.
Lemma nodup_ok : forall l : list path, nodup (list_eq_dec (list_eq_dec N.eq_dec)) l = l -> NoDup l.
Proof. intros l H. rewrite <- H. apply NoDup_nodup. Qed.
Example ldir_unique : unique_paths ldir.
Proof. apply nodup_ok. vm_compute. reflexivity. Qed.
Example ldir_no_tmp : no_tmp ldir.
Proof. intros p o I M. unfold ldir in I. repeat (destruct I as [[= <- <-]|I]; [first [discriminate M|vm_compute; reflexivity]|]). contradiction. Qed.
Example m2_kept : holds ldir (vpath "2.manifest") m2 /\ kept task2 [] m2 /\ ~ kept task2 [] m1 /\ holds ldir (vpath "1.manifest") m1 /\ keeps task2 [] ldir (deletion_path d0).
Proof.
  assert (H2 : holds ldir (vpath "2.manifest") m2) by (exists (man m2); split; [cbn; auto 20|split; reflexivity]).
  assert (H1 : holds ldir (vpath "1.manifest") m1) by (exists (man m1); split; [cbn; auto 20|split; reflexivity]).
  assert (K2 : kept task2 [] m2) by (left; cbn; lia).
  split; [exact H2|]. split; [exact K2|]. split; [|split; [exact H1|]].
  - intros [X|[[]|X]]; [cbn in X; lia|]. unfold task2, m1, mk, day in X. cbn [ct_before mi_time] in X. lia.
  - exists (vpath "2.manifest"), m2. split; [exact H2|]. split; [exact K2|]. apply n_del. left. reflexivity.
Qed.
(* stopping after the first removal and starting over *)
Example restart_example : exists i done rest, inspect task2 [] ldir = Some i /\ removals task2 (121 * day) i ldir = done ++ rest /\ List.length done = 1%nat /\
  paths (cleanup task2 [] (121 * day) (remove_all done ldir)) = paths (cleanup task2 [] (121 * day) ldir).
Proof. eexists. exists [[lit "data"; lit "a.lance"]]. eexists. repeat split; vm_compute; reflexivity. Qed.
(* the unreferenced young file c.lance stays, and so would a new version made of it *)
Example young_example : young (121 * day) (119 * day) /\ in_layout [lit "data"; lit "c.lance"] /\ ~ referenced ldir [lit "data"; lit "c.lance"].
Proof.
  split; [vm_compute; discriminate|]. split; [left; reflexivity|]. intros (q & m & H & Nd). apply mans_holds in H.
  assert (X : m = m1 \/ m = m2) by (destruct H as [[= _ <-]|[[= _ <-]|[]]]; auto). clear H.
  inversion Nd as [f J E1|d J E1|f J E1|u rest J E1]; [|vm_compute in E1; discriminate..]. subst f.
  destruct X as [-> | ->]; vm_compute in J; repeat (destruct J as [J|J]; [discriminate|]); contradiction.
Qed.

(* C48: a tag on the version being read is enough for the error, though nothing old is tagged *)
Theorem tagged_latest_refuted : exists c tg l, ct_error c = true /\ (exists q m, holds l q m /\ mi_version m = ct_version c /\ In (mi_version m) tg) /\
  (forall p o, In (p, o) l -> is_manifest p = true -> ob_man o <> None) /\ ~ old_tagged c tg l /\ inspect c tg l = None.
Proof.
  exists task2, [2%N], ldir. split; [reflexivity|]. split; [exists (vpath "2.manifest"), m2; split; [apply m2_kept|split; [reflexivity|left; reflexivity]]|]. split; [|split; [|vm_compute; reflexivity]].
  - intros p o I M. unfold ldir in I. repeat (destruct I as [[= <- <-]|I]; [first [discriminate M|discriminate]|]). contradiction.
  - intros (q & m & [o [I [M F]]] & J & K). unfold ldir in I. repeat (destruct I as [[= <- <-]|I]; [first [discriminate M|injection F as <-; first [solve [cbn in J; intuition discriminate]|apply K; left; cbn; lia]]|]). contradiction.
Qed.

(* C79: restoring an old version while cleanup removes it *)
Definition m3 : minfo := mk 3 (121 * day) ["a.lance"%string; "b.lance"%string] [] "3.txn" ["u1"%string].
Definition ldir3 : dir := ldir ++ [([lit "_transactions"; lit "3.txn"], file (121 * day)); (vpath "3.manifest", man m3)].
Theorem restored_version_loses_files_refuted : exists c tg l i l' now m m' p, inspect c tg l = Some i /\ unique_paths l' /\ incl l l' /\
  holds l (vpath "1.manifest") m /\ mi_version m = 1%N /\
  holds l' (vpath "3.manifest") m' /\ (ct_version c < mi_version m')%N /\ mi_data m' = mi_data m /\
  needs m' p /\ In p (removals c now i l').
Proof.
  exists task2, [], ldir. eexists. exists ldir3, (121 * day), m1, m3, [lit "data"; lit "a.lance"]. split; [vm_compute; reflexivity|]. split; [apply nodup_ok; vm_compute; reflexivity|].
  split; [apply incl_appl, incl_refl|]. split; [apply m2_kept|]. split; [reflexivity|]. split; [exists (man m3); split; [apply in_or_app; right; right; left; reflexivity|split; reflexivity]|].
  split; [reflexivity|]. split; [reflexivity|]. split; [apply (n_data m3 (lit "a.lance")); left; reflexivity|]. vm_compute. auto.
Qed.
(* the same with a tag put on an old version between the listing of the tags and the removal *)
Theorem new_tag_ignored_refuted : exists c tg tg' l i now q m, inspect c tg l = Some i /\ incl tg tg' /\ holds l q m /\ kept c tg' m /\ In q (removals c now i l).
Proof.
  exists task2, [], [1%N], ldir. eexists. exists (121 * day), (vpath "1.manifest"), m1. split; [vm_compute; reflexivity|]. split; [intros ? []|]. split; [apply m2_kept|]. split; [right; left; left; reflexivity|]. vm_compute. auto 20.
Qed.

(* C80: files outside the dataset's directories *)
Definition foreign : path := [lit "data.lance"; lit "data"; lit "x.lance"].
Theorem foreign_removed_refuted : exists c tg l i now p o, inspect c tg l = Some i /\ ct_unverified c = false /\ In (p, o) l /\ ~ in_layout p /\ ~ referenced l p /\ In p (removals c now i l).
Proof.
  exists task2, [], ((foreign, file (100 * day)) :: ldir). eexists. exists (121 * day), foreign, (file (100 * day)). split; [vm_compute; reflexivity|]. split; [reflexivity|]. split; [left; reflexivity|].
  split; [intros [X|[X|[X|[X|[X|[]]]]]]; vm_compute in X; discriminate|]. split; [|vm_compute; auto].
  intros (q & m & [o [I [M F]]] & Nd). inversion Nd as [f J E1|d J E1|f J E1|u rest J E1]; vm_compute in E1; discriminate.
Qed.
(* what is removed is in a directory whose name starts like one of the dataset's *)
Theorem removed_prefix : forall c tg l i l' now p, inspect c tg l = Some i -> In p (removals c now i l') ->
  (exists d, In d ["data"; "_deletions"; "_transactions"; "_indices"; "_versions/.tmp"]%string /\ starts_with (joined p) (lit d) = true) \/ exists m, holds l p m /\ ~ kept c tg m.
Proof.
  intros c tg l i l' now p E H. apply inspect_process in E. apply in_app_iff in H. destruct H as [H|H]; [|right; apply (old_manifests _ _ _ _ _ E); exact H].
  unfold listed_removals in H. apply in_map_iff in H. destruct H as [[q o] [<- H]]. apply filter_In in H. destruct H as [_ H]. apply andb_prop in H. destruct H as [_ H]. cbn [fst snd] in *. unfold removable in H.
  destruct (starts_with (joined q) (lit "_versions/.tmp")) eqn:S1; [left; exists "_versions/.tmp"%string; split; [cbn; auto 10|exact S1]|].
  destruct (starts_with (joined q) (lit "_indices")) eqn:S2; [left; exists "_indices"%string; split; [cbn; auto 10|exact S2]|].
  destruct (is_ext q "lance"); [destruct (starts_with (joined q) (lit "data")) eqn:S3; [left; exists "data"%string; split; [cbn; auto 10|exact S3]|discriminate]|].
  destruct (is_ext q "manifest"); [discriminate|].
  destruct (_ || _); [destruct (starts_with (joined q) (lit "_deletions")) eqn:S3; [left; exists "_deletions"%string; split; [cbn; auto 10|exact S3]|discriminate]|].
  destruct (is_ext q "txn"); [destruct (starts_with (joined q) (lit "_transactions")) eqn:S3; [left; exists "_transactions"%string; split; [cbn; auto 10|exact S3]|discriminate]|discriminate].
Qed.

(* C81: out of order, an interrupted run can strand files until they are seven days old *)
Definition m1y : minfo := mk 1 (118 * day) ["a.lance"%string] [] "1.txn" [].
Definition m2y : minfo := mk 2 (118 * day) [] [] "2.txn" [].
Definition ldiry : dir := [([lit "data"; lit "a.lance"], file (118 * day)); (vpath "1.manifest", man m1y); (vpath "2.manifest", man m2y)].
Theorem restart_out_of_order_refuted : exists c tg l i now done, unique_paths l /\ no_tmp l /\ inspect c tg l = Some i /\ incl done (removals c now i l) /\
  paths (cleanup c tg now (remove_all done l)) <> paths (cleanup c tg now l).
Proof.
  exists task2, [], ldiry. eexists. exists (121 * day), [vpath "1.manifest"]. split; [apply nodup_ok; vm_compute; reflexivity|].
  split; [intros p o I M; unfold ldiry in I; repeat (destruct I as [[= <- <-]|I]; [first [discriminate M|vm_compute; reflexivity]|]); contradiction|].
  split; [vm_compute; reflexivity|]. split; [intros x [<-|[]]; vm_compute; auto|]. vm_compute. discriminate.
Qed.
