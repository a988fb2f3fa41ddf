(* Reading mini-block pages: ranges of rows in batches; pages of values of a fixed width. *)
From Coq Require Import List Arith NArith ZArith Bool Lia.
From Verif Require Import Lib SerdeModel SerdeProofs RepDefModel FullZipModel FullZipProofs FullZipRead FullZipPage FullZipVar MiniModel MiniProofs MiniSched MiniBytes MiniPage.
Import ListNotations.
Local Open Scope nat_scope.

(* ranges of rows, in order and not empty *)
Fixpoint sorted (lo total : nat) (rs : list (nat * nat)) : Prop := match rs with [] => True | r :: t => lo <= fst r /\ fst r < snd r <= total /\ sorted (snd r) total t end.
(* no chunk without a row start lies before the row [s] and after the row before it *)
Definition row_clean (L : nat) (cs : list (list item)) (s : nat) : Prop := forall a c b, cs = a ++ c :: b -> count L c = 0 -> count L (concat a) <> s.

Lemma flat_cut : forall (us : list (list item)) k n, Forall (fun r => length r = k) us -> firstn (n * k) (concat us) = concat (firstn n us) /\ skipn (n * k) (concat us) = concat (skipn n us).
Proof.
  induction us as [|u us IH]; intros k n F; [cbn; rewrite firstn_nil, skipn_nil, firstn_nil, skipn_nil; auto|]. inversion F as [|? ? F1 F2]; subst. destruct n as [|n]; [cbn; auto|]. cbn [concat firstn skipn Nat.mul]. destruct (IH (length u) n F2) as [A B].
  rewrite firstn_app, skipn_app. replace (length u + n * length u - length u) with (n * length u) by lia. rewrite A, B. rewrite firstn_all2, skipn_all2 by lia. auto.
Qed.
Lemma flat_length : forall (us : list (list item)) k, Forall (fun r => length r = k) us -> length (concat us) = length us * k.
Proof. intros us k F. induction F as [|u us U F IH]; [reflexivity|]. cbn [concat length]. rewrite app_length, IH, U. lia. Qed.
Definition singles (l : list item) : list (list item) := map (fun it => [it]) l.
Lemma flat_pick : forall us k rs, Forall (fun r => length r = k) us -> flat_map (pick (singles (concat us))) (map (fun r => (fst r * k, snd r * k)) rs) = singles (concat (flat_map (pick us) rs)).
Proof.
  intros us k rs F. induction rs as [|[s e] rs IH]; [reflexivity|]. cbn [map flat_map]. rewrite IH, concat_app. unfold singles at 3. rewrite map_app. f_equal. unfold pick, singles. cbn [fst snd]. rewrite skipn_map, firstn_map. f_equal. destruct (flat_cut us k s F) as [_ ->].
  rewrite <- Nat.mul_sub_distr_r. apply flat_cut. apply Forall_forall. intros x X. rewrite Forall_forall in F. apply F. rewrite <- (firstn_skipn s us). apply in_or_app. right. exact X.
Qed.
Lemma groups_flat : forall ms hd k ns us, Forall (fun r => length r = k) us -> map (batch_of ms hd) (groups (map (fun n => n * k) ns) (singles (concat us))) = map (batch_of ms hd) (groups ns us).
Proof.
  intros ms hd k ns. induction ns as [|n ns IH]; intros us F; [reflexivity|]. cbn [map groups]. destruct (flat_cut us k n F) as [A B]. unfold singles in *. rewrite firstn_map, skipn_map, A, B, IH.
  - f_equal. unfold batch_of. rewrite concat_single. reflexivity.
  - apply Forall_forall. intros x X. rewrite Forall_forall in F. apply F. rewrite <- (firstn_skipn n us). apply in_or_app. right. exact X.
Qed.
Lemma sum_scale : forall ns k, sumn (map (fun n => n * k) ns) = sumn ns * k.
Proof. induction ns as [|n ns IH]; intros k; [reflexivity|]. cbn [map]. change (sumn (n :: ns)) with (n + sumn ns). change (sumn (n * k :: map (fun m => m * k) ns)) with (n * k + sumn (map (fun m => m * k) ns)). rewrite IH. lia. Qed.
Lemma sorted_order : forall ipr rs lo total L cs, 0 < ipr -> sorted lo total rs -> length (MiniSched.rows L cs) = total * ipr -> in_order L cs (lo * ipr) (map (fun r => (fst r * ipr, snd r * ipr)) rs).
Proof.
  intros ipr. induction rs as [|[s e] rs IH]; intros lo total L cs P S T; [exact Logic.I|]. destruct S as (S1 & S2 & S3). cbn [map in_order fst snd] in *. split; [nia|]. split; [rewrite T; nia|]. eapply IH; eauto.
Qed.

Theorem mini_read : forall ms hd ipr rows dec ps p rs ns, mini_ok ms hd ipr rows -> parts_ok dec ps -> ps <> [] -> flat_map t_vals ps = page_vals rows ->
  encode_mini (page_levels ms hd rows) (length (page_vals rows)) (blocks_parts ps) = Some p ->
  sorted 0 (length rows) rs -> (has_lists ms = true -> Forall (fun r => row_clean (lists ms) (carve (lens ps) (concat rows)) (fst r)) rs) ->
  Forall (fun n => 0 < n) ns -> sumn ns <= length (flat_map (pick rows) rs) ->
  read_mini dec p ipr rs ns = Some (map (batch_of ms hd) (groups ns (flat_map (pick rows) rs))).
Proof.
  intros ms hd ipr rows dec ps p rs ns OK PO PN PV EN SO CL NP NS. unfold read_mini. set (rs' := map (fun r => (fst r * ipr, snd r * ipr)) rs).
  destruct (encoded ms hd ipr rows OK dec ps PO PN PV p EN) as [ws (_ & _ & _ & _ & IX & _)]. rewrite IX. set (C := cs rows ps) in *. set (L := lists ms) in *.
  assert (RU : MiniSched.rows L C = units ms rows) by (eapply rows_units; eauto). assert (OK' := OK). destruct OK' as (_ & IP & _ & Q & _).
  destruct (carved rows dec ps PO PN PV) as (CC & CN & CF & _ & _). fold C in CC, CN, CF.
  assert (US : flat_map (pick (units ms rows)) rs' = (if has_lists ms then flat_map (pick rows) rs else singles (concat (flat_map (pick rows) rs)))).
  { unfold units, rs'. destruct (has_lists ms).
    - destruct Q as (-> & _). rewrite (map_ext _ (fun r => r)) by (intros [a b]; cbn; rewrite !Nat.mul_1_r; reflexivity). rewrite map_id. reflexivity.
    - apply flat_pick. apply Q. }
  assert (UL : length (MiniSched.rows L C) = length rows * ipr).
  { rewrite RU. unfold units. destruct (has_lists ms); [destruct Q as (-> & _); lia|]. rewrite map_length. apply flat_length. apply Q. }
  assert (IO : in_order L C 0 rs') by (apply (sorted_order ipr rs 0 (length rows) L C IP SO UL)).
  assert (CLN : Forall (fun r => clean L C (fst r)) rs').
  { destruct (Bool.bool_dec (has_lists ms) true) as [H|H].
    - specialize (CL H). rewrite H in Q. destruct Q as (I1 & _). unfold rs'. rewrite I1. apply Forall_forall. intros r R. apply in_map_iff in R as [x [<- X]]. cbn [fst]. rewrite Nat.mul_1_r. rewrite Forall_forall in CL. exact (CL x X).
    - apply not_true_is_false in H. rewrite H in Q. destruct Q as [_ Q].
      assert (BD : Forall (fun r => fst r < length (MiniSched.rows L C)) rs').
      { clear -IO. revert IO. generalize 0. induction rs' as [|r l IH]; intros lo IO; [constructor|]. destruct IO as (A & B & D). constructor; [lia|]. eapply IH. exact D. }
      eapply Forall_impl; [|exact BD]. cbv beta. intros r R a c b E Z. rewrite rows_length in R. rewrite E, concat_app, count_app in R. cbn [concat] in R. rewrite count_app in R.
      assert (ST : Forall (fun x => st L x = true) c).
      { apply Forall_forall. intros x X. assert (J : In x (concat rows)) by (rewrite <- CC, E, concat_app; apply in_or_app; right; apply in_or_app; left; exact X). rewrite Forall_forall in Q. unfold st. rewrite (Q x J). unfold L. rewrite (L_flat ms H). reflexivity. }
      assert (c = []) by (destruct c as [|x c]; [reflexivity|]; inversion ST as [|? ? S1 _]; subst; unfold count in Z; cbn [filter] in Z; rewrite S1 in Z; discriminate). subst c.
      assert (b = []) by (assert (FF := full_app a ([] :: b)); rewrite <- E in FF; specialize (FF CF); destruct b; [reflexivity|destruct FF; congruence]). subst b. cbn in R. lia. }
  destruct rs as [|r0 rs0].
  { cbn in NS. destruct ns as [|n ns]; [reflexivity|]. inversion NP; subst. change (sumn (n :: ns)) with (n + sumn ns) in NS. lia. }
  destruct (schedule_ok L C rs' CF IO ltac:(unfold rs'; discriminate) CLN) as [is (S1 & S2 & S3 & S4)]. rewrite S1. cbn [obind]. rewrite RU, US in S2.
  rewrite (batches_read ms hd ipr rows OK dec ps PO PN PV p EN ns is _ 0 IP (wf_state L C is None S3) (loaded_all is S4) NP); fold C; fold L; rewrite S2.
  - rewrite skipn_O. destruct (Bool.bool_dec (has_lists ms) true) as [H|H].
    + rewrite H in *. destruct Q as (-> & _). rewrite (map_ext _ (fun n => n)) by (intros; lia). rewrite map_id. reflexivity.
    + apply not_true_is_false in H. rewrite H in *. f_equal. apply groups_flat. apply Forall_forall. intros x X. destruct Q as [Q _]. rewrite Forall_forall in Q. apply Q. apply in_flat_map in X as [r [_ X]]. revert X. apply pick_In.
  - rewrite sum_scale. cbn [Nat.add]. destruct (Bool.bool_dec (has_lists ms) true) as [H|H].
    + rewrite H in *. destruct Q as (-> & _). lia.
    + apply not_true_is_false in H. rewrite H in *. unfold singles. rewrite map_length. rewrite (flat_length _ ipr); [nia|]. apply Forall_forall. intros x X. destruct Q as [Q _]. rewrite Forall_forall in Q. apply Q. apply in_flat_map in X as [r [_ X]]. revert X. apply pick_In.
Qed.
(* row 0, and all rows if every chunk but the last has a row start *)
Lemma clean_zero : forall ms hd ipr rows dec ps, mini_ok ms hd ipr rows -> parts_ok dec ps -> ps <> [] -> flat_map t_vals ps = page_vals rows -> row_clean (lists ms) (carve (lens ps) (concat rows)) 0.
Proof.
  intros ms hd ipr rows dec ps OK PO PN PV a c b E Z. destruct (cs_hd ms hd ipr rows OK dec ps PO PN PV) as [c0 [t [C0 NE]]]. assert (FS := first_starts ms hd ipr rows OK dec ps PO PN PV). unfold cs in *. rewrite C0 in FS. cbn [goes_on] in FS.
  assert (P : 0 < count (lists ms) c0) by (rewrite (count_tl (lists ms) c0 NE), FS; lia). rewrite C0 in E. destruct a as [|x a]; cbn [app] in E; injection E as -> _; [lia|]. cbn [concat]. rewrite count_app. lia.
Qed.
Lemma clean_starts : forall L cs s, s < count L (concat cs) -> Forall (fun c => 0 < count L c) (removelast cs) -> row_clean L cs s.
Proof.
  intros L cs s H F a c b E Z. rewrite E in *. destruct b as [|d b].
  - rewrite concat_app, count_app in H. cbn [concat] in H. rewrite app_nil_r in H. lia.
  - rewrite removelast_app in F by discriminate. apply Forall_app in F as [_ F]. change (removelast (c :: d :: b)) with (c :: removelast (d :: b)) in F. inversion F; subst. lia.
Qed.
Theorem mini_scan : forall ms hd ipr rows dec ps p ns, mini_ok ms hd ipr rows -> parts_ok dec ps -> ps <> [] -> flat_map t_vals ps = page_vals rows ->
  encode_mini (page_levels ms hd rows) (length (page_vals rows)) (blocks_parts ps) = Some p -> Forall (fun n => 0 < n) ns -> sumn ns = length rows ->
  read_mini dec p ipr [(0, length rows)] ns = Some (map (batch_of ms hd) (groups ns rows)).
Proof.
  intros ms hd ipr rows dec ps p ns OK PO PN PV EN NP NS. assert (PA : flat_map (pick rows) [(0, length rows)] = rows) by (cbn [flat_map]; unfold pick; cbn [fst snd skipn]; rewrite Nat.sub_0_r, firstn_all, app_nil_r; reflexivity).
  rewrite (mini_read ms hd ipr rows dec ps p _ ns OK PO PN PV EN); rewrite ?PA; auto.
  - assert (NE : rows <> []) by apply OK. cbn. split; [lia|]. split; [|exact Logic.I]. destruct rows; [congruence|]. cbn. lia.
  - intros _. constructor; [|constructor]. cbn [fst]. eapply clean_zero; eauto.
  - lia.
Qed.

(* ---- values of a fixed width ---- *)
Lemma grow_ok : forall fuel log num w, num = 2 ^ log -> (N.of_nat num < 4096)%N -> (N.of_nat (num * w) < 8186)%N -> 1 <= log ->
  let '(g, n) := grow fuel log (num * w) num in n = 2 ^ g /\ (N.of_nat n < 4096)%N /\ (N.of_nat (n * w) < 8186)%N /\ 1 <= g.
Proof.
  induction fuel as [|fuel IH]; intros log num w E NB SB LG; cbn [grow]; [auto|]. destruct (_ && _) eqn:C; [|auto].
  apply andb_true_iff in C as [C1 C2]. apply N.ltb_lt in C1, C2. replace (2 * (num * w)) with (2 * num * w) in * by lia. apply IH; auto; try lia. rewrite E. cbn. lia.
Qed.
Lemma per_ok : forall w g n, vals_per_chunk w = Some (g, n) -> n = 2 ^ g /\ (N.of_nat n < 4096)%N /\ (N.of_nat (n * w) < 8186)%N /\ 1 <= g.
Proof.
  intros w g n H. unfold vals_per_chunk in H. destruct (N.ltb _ _) eqn:W in H; [|discriminate]. apply N.ltb_lt in W. assert (Q := grow_ok 12 1 2 w eq_refl eq_refl W (le_n 1)). destruct (grow 12 1 (2 * w) 2) as [g' n']. injection H as <- <-. exact Q.
Qed.
Fixpoint value_parts (fuel log per : nat) (vals : list (list N)) : list part :=
  match fuel with
  | 0 => []
  | S fuel => if per <=? length vals then {| t_log := log; t_bytes := concat (firstn per vals); t_vals := firstn per vals |} :: value_parts fuel log per (skipn per vals)
              else [{| t_log := 0; t_bytes := concat vals; t_vals := vals |}]
  end.
Lemma concat_width : forall w (vs : list (list N)), Forall (fun v => length v = w) vs -> length (concat vs) = length vs * w.
Proof. intros w vs F. induction F as [|v vs V F IH]; [reflexivity|]. cbn [concat length]. rewrite app_length, IH, V. lia. Qed.
Lemma width_chunks : forall w vs fuel, 0 < w -> Forall (fun v => length v = w) vs -> length (concat vs) <= fuel -> chunks_exact fuel w (concat vs) = vs.
Proof.
  intros w vs fuel W G. revert fuel. induction G as [|v vs V G IH]; intros fuel B; [destruct fuel; [reflexivity|]; cbn [concat chunks_exact length]; rewrite (proj2 (Nat.ltb_lt _ _) W); reflexivity|].
  cbn [concat] in *. rewrite app_length in B. destruct fuel as [|fuel]; [lia|]. cbn [chunks_exact]. rewrite app_length. rewrite (proj2 (Nat.ltb_ge _ _)) by lia. rewrite firstn_app, skipn_app, V, Nat.sub_diag, firstn_O, app_nil_r. cbn [skipn]. rewrite firstn_all2, skipn_all2 by lia. cbn [app]. rewrite IH by lia. reflexivity.
Qed.
Lemma value_decode_ok : forall w vs, 0 < w -> Forall (fun v => length v = w) vs -> value_decode w (concat vs) (length vs) = Some (vs ++ []).
Proof. intros w vs W F. unfold value_decode. rewrite (concat_width w vs F), Nat.eqb_refl. f_equal. rewrite app_nil_r. apply width_chunks; auto. rewrite (concat_width w vs F). lia. Qed.
Lemma value_parts_ok : forall w log per fuel vals, 0 < w -> per = 2 ^ log -> (N.of_nat per < 4096)%N -> 1 <= log -> length vals < fuel -> Forall (fun v => length v = w) vals ->
  parts_ok (value_decode w) (value_parts fuel log per vals) /\ value_parts fuel log per vals <> [] /\ flat_map t_vals (value_parts fuel log per vals) = vals /\ flat_map t_bytes (value_parts fuel log per vals) = concat vals /\
  map (fun t => (t_log t, length (t_bytes t))) (value_parts fuel log per vals) = value_chunks fuel log per w (length vals) /\ Forall (fun t => length (t_vals t) <= per /\ t_bytes t = concat (t_vals t)) (value_parts fuel log per vals).
Proof.
  intros w log per fuel vals W P PB LG. revert vals. induction fuel as [|fuel IH]; intros vals FU F; [lia|].
  assert (LB : (N.of_nat log < 16)%N) by (destruct (N.lt_ge_cases (N.of_nat log) 16) as [Q|Q]; [exact Q|]; assert (HH : 2 ^ 12 <= 2 ^ log) by (apply Nat.pow_le_mono_r; lia); assert (KK : (N.of_nat (2 ^ 12) = 4096)%N) by (vm_compute; reflexivity); rewrite <- P in HH; clear -HH KK PB; set (z := 2 ^ 12) in *; clearbody z; lia).
  assert (PP : 0 < per) by (rewrite P; assert (Q := Nat.pow_nonzero 2 log); lia).
  cbn [value_parts value_chunks]. destruct (Nat.leb_spec per (length vals)) as [Q|Q].
  - assert (F1 : Forall (fun v => length v = w) (firstn per vals)) by (apply Forall_forall; intros x X; rewrite Forall_forall in F; apply F; rewrite <- (firstn_skipn per vals); apply in_or_app; left; exact X).
    assert (F2 : Forall (fun v => length v = w) (skipn per vals)) by (apply Forall_forall; intros x X; rewrite Forall_forall in F; apply F; rewrite <- (firstn_skipn per vals); apply in_or_app; right; exact X).
    assert (LF : length (firstn per vals) = per) by (rewrite firstn_length; lia).
    destruct (IH (skipn per vals) ltac:(rewrite skipn_length; lia) F2) as (A & B & C & D & E & G). set (R := value_parts fuel log per (skipn per vals)) in *. split; [|split; [discriminate|split; [|split; [|split]]]].
    + cbn [parts_ok t_bytes t_vals t_log]. split; [exists []; apply value_decode_ok; auto|]. split; [exact LB|]. split; [|exact A]. destruct R as [|x R]; [congruence|]. split; [lia|]. rewrite LF. exact P.
    + cbn [flat_map t_vals]. rewrite C. apply firstn_skipn.
    + cbn [flat_map t_bytes]. rewrite D, <- concat_app, firstn_skipn. reflexivity.
    + cbn [map t_log t_bytes]. rewrite E, (concat_width w _ F1), LF, skipn_length. reflexivity.
    + constructor; [cbn [t_vals t_bytes]; split; [lia|reflexivity]|exact G].
  - split; [|split; [discriminate|split; [|split; [|split]]]]; cbn [flat_map t_vals t_bytes t_log map].
    + cbn [parts_ok t_bytes t_vals t_log]. split; [exists []; apply value_decode_ok; auto|]. split; [reflexivity|]. auto.
    + apply app_nil_r.
    + apply app_nil_r.
    + rewrite (concat_width w _ F). reflexivity.
    + constructor; [cbn [t_vals t_bytes]; split; [lia|reflexivity]|constructor].
Qed.
Lemma value_blocks_ok : forall w vals b, 0 < w -> Forall (fun v => length v = w) vals -> value_blocks w vals = Some b ->
  exists per ps, option_map snd (vals_per_chunk w) = Some per /\ b = blocks_parts ps /\ parts_ok (value_decode w) ps /\ ps <> [] /\ flat_map t_vals ps = vals /\ Forall (fun t => length (t_vals t) <= per /\ t_bytes t = concat (t_vals t)) ps /\ (N.of_nat per < 4096)%N /\ (N.of_nat (per * w) < 8186)%N.
Proof.
  intros w vals b W F H. unfold value_blocks in H. destruct (vals_per_chunk w) as [[log per]|] eqn:V; [|discriminate]. cbn [omap] in H. destruct (per_ok _ _ _ V) as (P1 & P2 & P3 & P4). destruct (value_parts_ok w log per (S (length vals)) vals W P1 P2 P4 ltac:(lia) F) as (A & B & C & D & E & G).
  exists per, (value_parts (S (length vals)) log per vals). split; [reflexivity|]. split; [|auto 10]. injection H as <-. unfold blocks_parts. rewrite D, E. reflexivity.
Qed.
(* the numbers of values of the chunks *)
Definition chunk_sizes (per n : nat) : list nat := repeat per (n / per) ++ [n mod per].
Lemma value_sizes : forall log per fuel vals, 0 < per -> length vals < fuel -> lens (value_parts fuel log per vals) = chunk_sizes per (length vals).
Proof.
  intros log per fuel. induction fuel as [|fuel IH]; intros vals P F; [lia|]. cbn [value_parts]. unfold chunk_sizes. destruct (Nat.leb_spec per (length vals)) as [Q|Q].
  - unfold lens in *. cbn [map t_vals]. rewrite IH by (try rewrite skipn_length; lia). unfold chunk_sizes. rewrite skipn_length, firstn_length, Nat.min_l by exact Q.
    replace (length vals) with ((length vals - per) + 1 * per) at 3 4 by lia. rewrite Nat.div_add, Nat.mod_add by lia. rewrite Nat.add_1_r. reflexivity.
  - unfold lens. cbn [map t_vals]. rewrite Nat.div_small, Nat.mod_small by exact Q. reflexivity.
Qed.
Lemma per_half : forall g n, n = 2 ^ g -> (N.of_nat n < 4096)%N -> (N.of_nat n <= 2048)%N.
Proof.
  intros g n E H. destruct (Nat.le_gt_cases g 11) as [Q|Q].
  - assert (HH : 2 ^ g <= 2 ^ 11) by (apply Nat.pow_le_mono_r; lia). assert (KK : (N.of_nat (2 ^ 11) = 2048)%N) by (vm_compute; reflexivity). rewrite <- E in HH. set (z := 2 ^ 11) in *. clearbody z. lia.
  - assert (HH : 2 ^ 12 <= 2 ^ g) by (apply Nat.pow_le_mono_r; lia). assert (KK : (N.of_nat (2 ^ 12) = 4096)%N) by (vm_compute; reflexivity). rewrite <- E in HH. set (z := 2 ^ 12) in *. clearbody z. lia.
Qed.
(* levels of a chunk with lists take up to four bytes an item *)
Lemma per_room : forall g n w, n = 2 ^ g -> (N.of_nat n < 4096)%N -> (N.of_nat (n * w) < 8186)%N -> (N.of_nat (4 * n + n * w) <= 14336)%N.
Proof.
  intros g n w E H W. assert (B := per_half g n E H). destruct (Nat.le_gt_cases w 3) as [Q|Q]; [nia|].
  assert (B2 : (N.of_nat n <= 1024)%N); [|nia]. destruct (Nat.le_gt_cases g 10) as [G|G].
  - assert (HH : 2 ^ g <= 2 ^ 10) by (apply Nat.pow_le_mono_r; lia). assert (KK : (N.of_nat (2 ^ 10) = 1024)%N) by (vm_compute; reflexivity). rewrite <- E in HH. set (z := 2 ^ 10) in *. clearbody z. lia.
  - assert (HH : 2 ^ 11 <= 2 ^ g) by (apply Nat.pow_le_mono_r; lia). assert (KK : (N.of_nat (2 ^ 11) = 2048)%N) by (vm_compute; reflexivity). rewrite <- E in HH. set (z := 2 ^ 11) in *. clearbody z. nia.
Qed.
Lemma one_chunk_some : forall log r d v, (N.of_nat (length r + length d + length v + 20) <= 16384)%N -> exists b m, one_chunk log r d v = Some (b, m).
Proof.
  intros log r d v H. unfold one_chunk. assert (P : forall n, pad8 n <= 7) by (intros n; unfold pad8; assert (Q := Nat.mod_upper_bound (8 - n mod 8) 8); lia).
  assert (LE : length (chunk_bytes r d v) <= length r + length d + length v + 20).
  { unfold chunk_bytes. set (h := le_bytes 2 (trunc 2 (N.of_nat (length r))) ++ le_bytes 2 (trunc 2 (N.of_nat (length d))) ++ le_bytes 2 (trunc 2 (N.of_nat (length v))) ++ r ++ d). assert (LH : length h = 6 + length r + length d) by (unfold h; rewrite !app_length, !le_bytes_length; lia). set (b := h ++ repeat 0%N (pad8 (length h)) ++ v). rewrite app_length, repeat_length. assert (LB : length b <= 13 + length r + length d + length v) by (unfold b; rewrite !app_length, repeat_length; specialize (P (length h)); lia). specialize (P (length b)). lia. }
  assert (M8 : length (chunk_bytes r d v) mod 8 = 0) by (unfold chunk_bytes; rewrite app_length, repeat_length; apply pad8_ok).
  rewrite (proj2 (N.ltb_lt (N.of_nat (length r)) 65535)) by lia. rewrite (proj2 (N.ltb_lt (N.of_nat (length d)) 65535)) by lia. rewrite (proj2 (N.leb_le (N.of_nat (length (chunk_bytes r d v))) 16384)) by lia. rewrite M8. cbn. eauto.
Qed.
Lemma write_some : forall hr hd ps cs, Forall2 (fun t c => (N.of_nat (length (lvs hr i_rep c) + length (lvs hd i_def c) + length (t_bytes t) + 20) <= 16384)%N) ps cs ->
  exists out, write_chunks (map (fun t => (t_log t, length (t_bytes t))) ps) (map (lvs hr i_rep) cs) (map (lvs hd i_def) cs) (flat_map t_bytes ps) = Some out.
Proof.
  intros hr hd ps cs F. induction F as [|t c ps cs H F IH]; [cbn; eauto|]. cbn [map flat_map write_chunks]. rewrite (proj2 (Nat.ltb_ge _ _)) by (rewrite app_length; lia).
  rewrite skip_front, firstn_app, Nat.sub_diag, firstn_O, app_nil_r, firstn_all. destruct (one_chunk_some (t_log t) _ _ _ H) as [b [m E]]. rewrite E. cbn [obind]. destruct IH as [[bs mts] E2]. rewrite E2. cbn. eauto.
Qed.
Lemma index_some : forall L cs first done, (first = false -> Forall (fun c => c <> []) cs) -> Forall (fun c => c <> []) (tl cs) -> exists idx, index_of L first (map (map i_rep) cs) done = Some idx.
Proof.
  intros L. induction cs as [|c cs IH]; intros first done F1 F2; [cbn; eauto|]. cbn [map index_of tl] in *. destruct first.
  - cbn [obind]. apply IH; [auto|]. destruct cs; [constructor|]. inversion F2; auto.
  - specialize (F1 eq_refl). inversion F1 as [|? ? F3 F4]; subst. destruct c as [|x c]; [congruence|]. cbn [map obind]. apply IH; [auto|]. destruct cs; [constructor|]. inversion F4; auto.
Qed.
Lemma encode_some : forall ms hd ipr rows dec ps, mini_ok ms hd ipr rows -> parts_ok dec ps -> ps <> [] -> flat_map t_vals ps = page_vals rows ->
  Forall2 (fun t c => (N.of_nat (length (lvs (has_lists ms) i_rep c) + length (lvs hd i_def c) + length (t_bytes t) + 20) <= 16384)%N) ps (carve (lens ps) (concat rows)) ->
  (has_lists ms = true -> Forall (fun c => c <> []) (carve (lens ps) (concat rows))) ->
  exists p, encode_mini (page_levels ms hd rows) (length (page_vals rows)) (blocks_parts ps) = Some p.
Proof.
  intros ms hd ipr rows dec ps OK PO PN PV SZ NE. assert (SI := sliced ms hd ipr rows OK dec ps PO PN PV i_rep). assert (SD := sliced ms hd ipr rows OK dec ps PO PN PV i_def). destruct (write_some _ _ _ _ SZ) as [[data meta] W]. 
  assert (NR := none_levels rows dec ps PO PN PV i_rep). assert (ND := none_levels rows dec ps PO PN PV i_def). unfold cs in *. set (C := carve (lens ps) (concat rows)) in *.
  unfold encode_mini, page_levels. cbn [r_rep r_def r_meaning b_chunks b_data blocks_parts]. rewrite map_map. change (map (fun x : part => fst (t_log x, length (t_bytes x))) ps) with (map t_log ps).
  assert (DEF : forall (B : Type) (k : list (list N) -> option B), obind (match (if hd then Some (map i_def (concat rows)) else None) with Some d => omap (map level_bytes) (slice_levels (max_visible ms) (if hd then Some (map i_def (concat rows)) else None) d (map t_log ps) 0 0 (length (page_vals rows))) | None => Some (map (fun _ : nat => @nil N) (map t_log ps)) end) k = k (map (lvs hd i_def) C)).
  { intros B k. destruct hd; [rewrite SD; cbn [omap obind]; rewrite map_map; reflexivity|]. cbn [obind]. rewrite ND. reflexivity. }
  destruct (Bool.bool_dec (has_lists ms) true) as [H|H].
  - rewrite H in *. rewrite SI. cbn [obind]. assert (ML : (0 <? max_rep ms) = true) by exact H. rewrite ML. specialize (NE eq_refl). destruct (index_some (max_rep ms) C true []) as [idx IX]; [discriminate|destruct C; [constructor|inversion NE; auto]|]. rewrite IX. cbn [omap obind]. rewrite DEF, map_map. change (map (fun x => level_bytes (map i_rep x)) C) with (map (lvs true i_rep) C). rewrite W. cbn. eauto.
  - apply not_true_is_false in H. rewrite H in *. cbn [obind]. rewrite DEF, NR, W. cbn. eauto.
Qed.
Lemma value_parts_ne : forall log per fuel vals, 0 < per -> length vals < fuel -> length vals mod per <> 0 -> Forall (fun t => t_vals t <> []) (value_parts fuel log per vals).
Proof.
  intros log per fuel. induction fuel as [|fuel IH]; intros vals P F M; [constructor|]. cbn [value_parts]. destruct (Nat.leb_spec per (length vals)) as [Q|Q].
  - constructor; [cbn [t_vals]; intros E; apply (f_equal (@length _)) in E; rewrite firstn_length in E; cbn in E; lia|]. apply IH; [exact P|rewrite skipn_length; lia|]. rewrite skipn_length. replace (length vals) with ((length vals - per) + 1 * per) in M by lia. rewrite Nat.mod_add in M by lia. exact M.
  - constructor; [|constructor]. cbn [t_vals]. intros E. rewrite E in M. cbn in M. rewrite Nat.mod_0_l in M by lia. lia.
Qed.
Lemma icount_part : forall (l : list (list item)) c, In c l -> icount shown c <= icount shown (concat l).
Proof. induction l as [|x l IH]; intros c J; [destruct J|]. cbn [concat]. rewrite icount_app. destruct J as [->|J]; [lia|]. specialize (IH c J). lia. Qed.

(* a page of values of [w] bytes: what it takes to write it *)
Definition writable (ms : list meaning) (w : nat) (rows : list (list item)) : Prop :=
  has_lists ms = true -> exists g per, vals_per_chunk w = Some (g, per) /\ length (page_vals rows) mod per <> 0 /\ length (concat rows) <= length (page_vals rows) + 500.
Theorem value_pages : forall ms hd ipr rows w g per, mini_ok ms hd ipr rows -> 0 < w -> Forall (fun v => length v = w) (page_vals rows) -> vals_per_chunk w = Some (g, per) -> writable ms w rows ->
  exists b ps p, value_blocks w (page_vals rows) = Some b /\ encode_mini (page_levels ms hd rows) (length (page_vals rows)) b = Some p /\
    b = blocks_parts ps /\ parts_ok (value_decode w) ps /\ ps <> [] /\ flat_map t_vals ps = page_vals rows /\ lens ps = chunk_sizes per (length (page_vals rows)).
Proof.
  intros ms hd ipr rows w g per OK W VW VP WR. set (vals := page_vals rows) in *. destruct (per_ok _ _ _ VP) as (P1 & P2 & P3 & P4).
  destruct (value_parts_ok w g per (S (length vals)) vals W P1 P2 P4 ltac:(lia) VW) as (A & B & C & D & E & G). set (ps := value_parts (S (length vals)) g per vals) in *.
  assert (PP : 0 < per) by (rewrite P1; assert (Q := Nat.pow_nonzero 2 g); lia).
  assert (VB : value_blocks w vals = Some (blocks_parts ps)) by (unfold value_blocks, blocks_parts; rewrite VP; cbn [omap]; rewrite D, E; reflexivity).
  destruct (carved rows (value_decode w) ps A B C) as (CC & CN & _ & C2 & _). unfold cs in *. set (K := carve (lens ps) (concat rows)) in *.
  assert (LP : lens ps = chunk_sizes per (length vals)) by (apply value_sizes; [exact PP|lia]).
  assert (IC : icount shown (concat rows) = length (concat rows) - length vals) by (assert (Q := vi_count shown (concat rows)); rewrite <- vals_count in Q; unfold vals, page_vals; lia).
  assert (SH := items_shown ms hd ipr rows OK). assert (RM := per_room g per w P1 P2 P3). assert (HF := per_half g per P1 P2).
  destruct (encode_some ms hd ipr rows (value_decode w) ps OK A B C) as [p EP].
  - fold K. assert (Z : forall x c, In c K -> t_vals x = flat_map vals_of c -> length (t_vals x) <= per /\ t_bytes x = concat (t_vals x) -> Forall (fun v => length v = w) (t_vals x) -> (N.of_nat (length (lvs (has_lists ms) i_rep c) + length (lvs hd i_def c) + length (t_bytes x) + 20) <= 16384)%N).
    { intros x c J V (L1 & L2) FW. rewrite L2, (concat_width w _ FW). assert (LC := vi_count shown c). rewrite <- vals_count, <- V in LC. assert (IP := icount_part K c J). rewrite CC, IC in IP. assert (LV : forall b f, length (lvs b f c) <= 2 * length c) by (intros [|] f; cbn [lvs]; [rewrite level_bytes_length, map_length; lia|cbn; lia]).
      assert (LV1 := LV (has_lists ms) i_rep). assert (LV2 := LV hd i_def). destruct (Bool.bool_dec (has_lists ms) true) as [H|H].
      - destruct (WR H) as [g' [per' (W1 & W2 & W3)]]. assert (length (t_vals x) * w <= per * w) by (apply Nat.mul_le_mono_r; exact L1). fold vals in W3. lia.
      - apply not_true_is_false in H. specialize (SH ltac:(rewrite H; reflexivity)). assert (IZ : icount shown (concat rows) = 0) by (apply icount_vis; exact SH). rewrite H in *. cbn [lvs length] in *. assert (length (t_vals x) * w <= per * w) by (apply Nat.mul_le_mono_r; exact L1). lia. }
    rewrite <- C in VW. assert (GO : forall (l : list part) k, Forall2 (fun t c => t_vals t = flat_map vals_of c) l k -> (forall c, In c k -> In c K) -> Forall (fun t => length (t_vals t) <= per /\ t_bytes t = concat (t_vals t)) l -> Forall (fun v => length v = w) (flat_map t_vals l) ->
      Forall2 (fun t c => (N.of_nat (length (lvs (has_lists ms) i_rep c) + length (lvs hd i_def c) + length (t_bytes t) + 20) <= 16384)%N) l k).
    { clear -Z. intros l k F. induction F as [|x c l k H F IH]; intros J G VW; [constructor|]. inversion G; subst. cbn [flat_map] in VW. apply Forall_app in VW as [V1 V2]. constructor; [apply Z; auto; apply J; left; reflexivity|]. apply IH; auto. intros d D. apply J. right. exact D. }
    apply GO; auto.
  - intros H. destruct (WR H) as [g' [per' (W1 & W2 & W3)]]. rewrite VP in W1. injection W1 as <- <-. assert (NE := value_parts_ne g per (S (length vals)) vals PP ltac:(lia) W2). fold ps in NE. fold K. clear -NE C2. induction C2 as [|x c l k H C2 IH]; [constructor|]. inversion NE as [|? ? N1 N2]; subst. constructor; [|auto]. intros ->. cbn in H. congruence.
  - exists (blocks_parts ps), ps, p. auto 10.
Qed.
