(* C57, C58 *)
From Coq Require Import List Arith Bool Lia Permutation.
From Verif Require Import Lib SamplerModel.
Import ListNotations.

Lemma ceil_pos : forall a s k, 0 < s -> (k < (a + (s - 1)) / s <-> k * s < a).
Proof.
  intros a s k Hs. pose proof (Nat.div_mod (a + (s - 1)) s ltac:(lia)). pose proof (Nat.mod_upper_bound (a + (s - 1)) s ltac:(lia)).
  set (q := (a + (s - 1)) / s) in *. set (r := (a + (s - 1)) mod s) in *. clearbody q r. split; intros; nia.
Qed.
Lemma pyrange_In : forall a n s x, 0 < s -> (In x (pyrange a n s) <-> exists k, x = a + k * s /\ x < n).
Proof.
  intros a n s x Hs. unfold pyrange. rewrite in_map_iff. split.
  - intros [k [E I]]. apply in_seq in I. exists k. split; [auto|]. destruct I as [_ I]. cbn in I. apply ceil_pos in I; [|exact Hs]. lia.
  - intros [k [E L]]. exists k. split; [auto|]. apply in_seq. split; [lia|]. cbn. apply ceil_pos; [exact Hs|]. lia.
Qed.
Lemma NoDup_map_inj : forall {A B} (f : A -> B) l, (forall x y, In x l -> In y l -> f x = f y -> x = y) -> NoDup l -> NoDup (map f l).
Proof.
  induction l as [|a l IH]; intros H N; cbn; [constructor|]. inversion N; subst. constructor.
  - intros I. apply in_map_iff in I as [y [E I]]. apply H in E; [subst; contradiction|right; exact I|left; reflexivity].
  - apply IH; auto. intros; apply H; auto; right; auto.
Qed.
Lemma pyrange_NoDup : forall a n s, 0 < s -> NoDup (pyrange a n s).
Proof. intros a n s Hs. apply NoDup_map_inj; [|apply seq_NoDup]. intros x y _ _ E. nia. Qed.
Lemma NoDup_flat_map : forall {A B} (f : A -> list B) l, NoDup l -> (forall x, In x l -> NoDup (f x)) ->
  (forall x y z, In x l -> In y l -> In z (f x) -> In z (f y) -> x = y) -> NoDup (flat_map f l).
Proof.
  induction l as [|a l IH]; intros N F D; cbn; [constructor|]. inversion N; subst.
  assert (G : forall (u v : list B), NoDup u -> NoDup v -> (forall z, In z u -> In z v -> False) -> NoDup (u ++ v)).
  { clear. induction u as [|z u IH]; intros v Nu Nv Dj; [exact Nv|]. inversion Nu; subst. cbn. constructor.
    - rewrite in_app_iff. intros [I|I]; [auto|]. apply (Dj z); [left; reflexivity|exact I].
    - apply IH; auto. intros w Iw Iv. apply (Dj w); [right; exact Iw|exact Iv]. }
  apply G.
  - apply F. left. reflexivity.
  - apply IH; auto; [intros; apply F; right; assumption|]. intros x y z Ix Iy. apply D; right; assumption.
  - intros z Iu Iv. apply in_flat_map in Iv as [y [Iy Iz]]. assert (a = y) by (apply (D a y z); auto; [left; reflexivity|right; exact Iy]). subst. contradiction.
Qed.

(* ---- C57 ---- *)
(* each position modulo world belongs to one rank *)
Lemma ranks_partition : forall n world, 0 < world ->
  Permutation (flat_map (fun rank => pyrange rank n world) (seq 0 world)) (seq 0 n).
Proof.
  intros n w Hw. apply NoDup_Permutation.
  - apply NoDup_flat_map; [apply seq_NoDup|intros; apply pyrange_NoDup; exact Hw|].
    intros x y z Ix Iy Zx Zy. apply in_seq in Ix, Iy. apply pyrange_In in Zx as [k [E _]]; [|exact Hw]. apply pyrange_In in Zy as [j [E' _]]; [|exact Hw].
    assert (Hx : z mod w = x) by (rewrite E, Nat.mod_add, Nat.mod_small by lia; reflexivity).
    assert (Hy : z mod w = y) by (rewrite E', Nat.mod_add, Nat.mod_small by lia; reflexivity). congruence.
  - apply seq_NoDup.
  - intros z. rewrite in_flat_map, in_seq. split.
    + intros [r [_ I]]. apply pyrange_In in I as [k [_ L]]; [|exact Hw]. lia.
    + intros L. exists (z mod w). split; [apply in_seq; pose proof (Nat.mod_upper_bound z w); lia|].
      apply pyrange_In; [exact Hw|]. exists (z / w). pose proof (Nat.div_mod z w). lia.
Qed.
Lemma flat_map_perm : forall {A B} (f : A -> list B) l1 l2, Permutation l1 l2 -> Permutation (flat_map f l1) (flat_map f l2).
Proof.
  intros A B f l1 l2 P. induction P; cbn; auto.
  - apply Permutation_app_head. exact IHP.
  - rewrite !app_assoc. apply Permutation_app_tail. apply Permutation_app_comm.
  - etransitivity; eauto.
Qed.
Lemma flat_map_flat_map : forall {A B C} (f : A -> list B) (g : B -> list C) l, flat_map g (flat_map f l) = flat_map (fun x => flat_map g (f x)) l.
Proof. induction l as [|a l IH]; cbn; [reflexivity|]. rewrite flat_map_app, IH. reflexivity. Qed.
Lemma flat_map_ext' : forall {A B} (f g : A -> list B) l, (forall x, In x l -> f x = g x) -> flat_map f l = flat_map g l.
Proof. induction l as [|a l IH]; intros H; cbn; [reflexivity|]. rewrite H by (left; reflexivity). f_equal. apply IH. intros; apply H; right; assumption. Qed.
Lemma take_all : forall {F} (l : list F), take_idx l (seq 0 (length l)) = l.
Proof.
  assert (G : forall {F} (l pre : list F), take_idx (pre ++ l) (seq (length pre) (length l)) = l).
  { induction l as [|a l IH]; intros pre; [reflexivity|]. cbn [length seq]. unfold take_idx. cbn [flat_map].
    rewrite nth_error_app2, Nat.sub_diag by lia. cbn. f_equal. specialize (IH (pre ++ [a])). rewrite <- app_assoc, app_length in IH. cbn in IH.
    rewrite Nat.add_1_r in IH. exact IH. }
  intros F l. apply (G F l []).
Qed.
(* fragments: every fragment goes to exactly one rank *)
Lemma fragments_partition : forall {F} (fragments : list F) world, 0 < world ->
  Permutation (flat_map (fun rank => shard_fragments fragments rank world) (seq 0 world)) fragments.
Proof.
  intros F fs w Hw. pose proof (flat_map_perm (fun i => match nth_error fs i with Some x => [x] | None => [] end) _ _ (ranks_partition (length fs) w Hw)) as P.
  fold (take_idx fs (seq 0 (length fs))) in P. rewrite take_all, flat_map_flat_map in P. exact P.
Qed.
(* batches of rows: every row goes to exactly one rank, whatever the order in
   which a rank reads its ranges *)
Lemma gen_ranges_In : forall rank w b total x, 0 < w -> 0 < b ->
  (In x (flat_map range_rows (gen_ranges rank w b total)) <-> x < total /\ exists k, x / b = rank + k * w).
Proof.
  intros rank w b total x Hw Hb. unfold gen_ranges. rewrite in_flat_map. split.
  - intros [r [I Hr]]. apply in_map_iff in I as [st [<- I]]. apply pyrange_In in I as [k [E L]]; [|nia].
    unfold range_rows in Hr. cbn in Hr. apply in_seq in Hr. split; [lia|]. exists k.
    symmetry. apply (Nat.div_unique x b (rank + k * w) (x - st)); nia.
  - intros [L [k E]]. pose proof (Nat.div_mod x b ltac:(lia)) as D. pose proof (Nat.mod_upper_bound x b ltac:(lia)) as M.
    exists (x / b * b, Nat.min (x / b * b + b) total). split.
    + apply in_map_iff. exists (x / b * b). split; [reflexivity|]. apply pyrange_In; [nia|]. exists k. rewrite E. nia.
    + unfold range_rows. cbn. apply in_seq. nia.
Qed.
Lemma gen_ranges_NoDup : forall rank w b total, 0 < w -> 0 < b -> NoDup (flat_map range_rows (gen_ranges rank w b total)).
Proof.
  intros rank w b total Hw Hb. apply NoDup_flat_map.
  - unfold gen_ranges. apply NoDup_map_inj; [|apply pyrange_NoDup; nia]. intros x y _ _ E. injection E. auto.
  - intros x _. apply seq_NoDup.
  - intros x y z Ix Iy Zx Zy. apply in_map_iff in Ix as [s1 [<- I1]]. apply in_map_iff in Iy as [s2 [<- I2]].
    apply pyrange_In in I1 as [k1 [E1 _]]; [|nia]. apply pyrange_In in I2 as [k2 [E2 _]]; [|nia].
    unfold range_rows in *. cbn in *. apply in_seq in Zx, Zy.
    assert (G : forall j k, j < k -> rank * b + j * (w * b) + b <= rank * b + k * (w * b)).
    { intros j k Hjk. assert (b <= w * b) by nia. assert ((j + 1) * (w * b) <= k * (w * b)) by (apply Nat.mul_le_mono_r; lia). lia. }
    destruct (lt_eq_lt_dec k1 k2) as [[H|H]|H]; [apply G in H; lia|subst; reflexivity|apply G in H; lia].
Qed.
Lemma rows_partition : forall w b total (ranges : nat -> list (nat * nat)), 0 < w -> 0 < b ->
  (forall rank, rank < w -> Permutation (ranges rank) (gen_ranges rank w b total)) ->
  Permutation (flat_map (fun rank => flat_map range_rows (ranges rank)) (seq 0 w)) (seq 0 total).
Proof.
  intros w b total ranges Hw Hb P.
  assert (PR : forall rank, In rank (seq 0 w) -> Permutation (flat_map range_rows (ranges rank)) (flat_map range_rows (gen_ranges rank w b total))).
  { intros rank I. apply in_seq in I. apply flat_map_perm. apply P. lia. }
  apply NoDup_Permutation.
  - apply NoDup_flat_map; [apply seq_NoDup| |].
    + intros x Ix. eapply Permutation_NoDup; [symmetry; apply PR; exact Ix|apply gen_ranges_NoDup; assumption].
    + intros x y z Ix Iy Zx Zy. apply (Permutation_in _ (PR _ Ix)) in Zx. apply (Permutation_in _ (PR _ Iy)) in Zy.
      apply gen_ranges_In in Zx as [_ [k E]]; auto. apply gen_ranges_In in Zy as [_ [j E']]; auto. apply in_seq in Ix, Iy.
      assert (Hx : (z / b) mod w = x) by (rewrite E, Nat.mod_add, Nat.mod_small by lia; reflexivity).
      assert (Hy : (z / b) mod w = y) by (rewrite E', Nat.mod_add, Nat.mod_small by lia; reflexivity). congruence.
  - apply seq_NoDup.
  - intros z. rewrite in_flat_map, in_seq. split.
    + intros [r [I Iz]]. apply (Permutation_in _ (PR _ I)) in Iz. apply gen_ranges_In in Iz; auto. lia.
    + intros L. assert (I : In ((z / b) mod w) (seq 0 w)) by (apply in_seq; pose proof (Nat.mod_upper_bound (z / b) w); lia).
      exists ((z / b) mod w). split; [exact I|]. apply (Permutation_in _ (Permutation_sym (PR _ I))). apply gen_ranges_In; auto.
      split; [lia|]. exists (z / b / w). pose proof (Nat.div_mod (z / b) w). lia.
Qed.

(* filtered scan: rank gets the rows at positions rank, rank + world, ... of the
   scan, provided no batch is shorter than the rows still to be skipped *)
Lemma take_idx_app : forall {A} (l : list A) a b, take_idx l (a ++ b) = take_idx l a ++ take_idx l b.
Proof. intros. unfold take_idx. apply flat_map_app. Qed.
Lemma take_idx_skip : forall {A} (l : list A) k idx, take_idx (skipn k l) idx = take_idx l (map (Nat.add k) idx).
Proof.
  intros A l k idx. induction idx as [|i idx IH]; [reflexivity|]. unfold take_idx in *. cbn [flat_map map]. rewrite IH. f_equal.
  assert (E : nth_error (skipn k l) i = nth_error l (k + i)).
  { clear IH. revert l. induction k as [|k IHk]; intros l; [reflexivity|]. destruct l; cbn [skipn Nat.add nth_error]; [apply nth_error_nil'|apply IHk]. }
  rewrite E. reflexivity.
Qed.
Lemma take_idx_prefix : forall {A} (a b : list A) idx, (forall i, In i idx -> i < length a) -> take_idx (a ++ b) idx = take_idx a idx.
Proof.
  intros A a b idx H. apply flat_map_ext'. intros i I. rewrite nth_error_app1 by (apply H; exact I). reflexivity.
Qed.
Lemma take_idx_suffix : forall {A} (a b : list A) idx, take_idx (a ++ b) (map (Nat.add (length a)) idx) = take_idx b idx.
Proof. intros. rewrite <- take_idx_skip. f_equal. rewrite skipn_app, skipn_all, Nat.sub_diag. reflexivity. Qed.
Lemma pyrange_shift : forall a n s k, map (Nat.add k) (pyrange a n s) = pyrange (k + a) (k + n) s.
Proof. intros. unfold pyrange. rewrite map_map. replace (k + n - (k + a)) with (n - a) by lia. apply map_ext. intros; lia. Qed.
(* splitting a stride at n1: what continues in the second part *)
Lemma pyrange_split : forall s a n1 n2, 0 < s -> a <= n1 ->
  pyrange a (n1 + n2) s = pyrange a n1 s ++ map (Nat.add n1) (pyrange ((s - (n1 - a) mod s) mod s) n2 s).
Proof.
  intros s a n1 n2 Hs L. rewrite pyrange_shift. unfold pyrange.
  pose proof (Nat.div_mod (n1 - a) s ltac:(lia)) as D. pose proof (Nat.mod_upper_bound (n1 - a) s ltac:(lia)) as M.
  set (q := (n1 - a) / s) in *. set (r := (n1 - a) mod s) in *.
  set (st := (s - r) mod s).
  (* count of the first part *)
  set (c1 := (n1 - a + (s - 1)) / s). set (c2 := (n1 + n2 - (n1 + st) + (s - 1)) / s). set (c := (n1 + n2 - a + (s - 1)) / s).
  assert (ST : n1 + st = a + c1 * s).
  { subst st c1. destruct (Nat.eq_dec r 0) as [Z|Z].
    - rewrite Z, Nat.sub_0_r, Nat.mod_same by lia. replace (n1 - a + (s - 1)) with (s - 1 + q * s) by nia. rewrite Nat.div_add, Nat.div_small by lia. nia.
    - rewrite (Nat.mod_small (s - r)) by lia. replace (n1 - a + (s - 1)) with (r - 1 + (q + 1) * s) by nia. rewrite Nat.div_add, Nat.div_small by lia. nia. }
  assert (CC : c = c1 + c2).
  { assert (forall k, k < c <-> k < c1 + c2).
    { intros k. subst c c2. rewrite ceil_pos by exact Hs. 
      destruct (le_lt_dec c1 k) as [G|G].
      - assert (k < c1 + (n1 + n2 - (n1 + st) + (s - 1)) / s <-> k - c1 < (n1 + n2 - (n1 + st) + (s - 1)) / s) as -> by lia.
        rewrite ceil_pos by exact Hs. rewrite ST. nia.
      - pose proof (proj1 (ceil_pos (n1 - a) s k Hs) G). split; intros; [apply Nat.lt_lt_add_r; exact G|clear - H; lia]. }
    destruct (lt_eq_lt_dec c (c1 + c2)) as [[G|G]|G]; [|exact G|]; [apply H in G; lia|apply H in G; lia]. }
  rewrite CC, seq_app, map_app. f_equal. cbn [Nat.add]. rewrite ST.
  assert (SS : forall k m, seq (m + k) c2 = map (Nat.add k) (seq m c2)).
  { clear. intros k m. revert m. induction c2 as [|c IH]; intros m; [reflexivity|]. cbn [seq map]. rewrite <- IH. f_equal; lia. }
  rewrite (SS c1 0 : seq c1 c2 = _).
  rewrite map_map. apply map_ext. intros. nia.
Qed.

Lemma shard_batches_spec : forall {A} w (batches : list (list A)) skip out, 0 < w -> shard_batches w skip batches = Some out ->
  concat out = take_idx (concat batches) (pyrange skip (length (concat batches)) w).
Proof.
  intros A w batches. induction batches as [|b t IH]; intros skip out Hw H; cbn [shard_batches] in H.
  - injection H as <-. cbn. unfold take_idx. symmetry. clear. induction (pyrange skip 0 w) as [|i l IH]; [reflexivity|]. cbn. rewrite nth_error_nil'. exact IH.
  - destruct (Nat.ltb_spec (length b) skip); [discriminate|].
    destruct (shard_batches w ((w - length (skipn skip b) mod w) mod w) t) as [l|] eqn:E; [|discriminate]. injection H as <-.
    apply IH in E; [|exact Hw]. cbn [concat]. rewrite E, app_length, pyrange_split by assumption. rewrite take_idx_app, take_idx_suffix.
    rewrite skipn_length. f_equal. rewrite take_idx_skip, pyrange_shift. rewrite Nat.add_0_r. replace (skip + (length b - skip)) with (length b) by lia.
    symmetry. apply take_idx_prefix. intros i I. apply pyrange_In in I as [k [_ L]]; [exact L|exact Hw].
Qed.
Lemma cut_spec : forall {A} b fuel (l : list A) out rest, 0 < b -> length l <= fuel -> cut fuel b l = (out, rest) ->
  concat out ++ rest = l /\ Forall (fun p => length p = b) out /\ length rest <= b /\ (l <> [] -> rest <> []).
Proof.
  intros A b fuel. induction fuel as [|fuel IH]; intros l out rest Hb L H; cbn [cut] in H.
  - injection H as <- <-. repeat split; auto. lia.
  - destruct (Nat.ltb_spec b (length l)).
    + destruct (cut fuel b (skipn b l)) as [o r] eqn:E. injection H as <- <-. apply IH in E; [|exact Hb|rewrite skipn_length; lia].
      destruct E as [E [F [S N]]]. repeat split.
      * cbn. rewrite <- app_assoc, E. apply firstn_skipn.
      * constructor; [rewrite firstn_length; lia|exact F].
      * exact S.
      * intros _. apply N. intros X. apply (f_equal (@length A)) in X. rewrite skipn_length in X. cbn in X. lia.
    + injection H as <- <-. repeat split; auto.
Qed.
(* delivered batches: all rows in order, all but the last of batch_size rows *)
Lemma deliver_spec : forall {A} b (batches : list (list A)) acc, 0 < b -> length acc <= b ->
  match deliver b acc batches with
  | Some out => concat out = acc ++ concat batches /\ (forall p, In p out -> 0 < length p <= b) /\ (forall p, In p (removelast out) -> length p = b) /\ out <> []
  | None => acc ++ concat batches = []
  end.
Proof.
  intros A b batches. induction batches as [|x t IH]; intros acc Hb L; cbn [deliver].
  - destruct acc as [|a acc]; [reflexivity|]. cbn [concat]. rewrite app_nil_r. split; [|split; [|split]].
    + reflexivity.
    + intros p [<-|[]]. cbn in *. lia.
    + intros p [].
    + discriminate.
  - destruct (Nat.ltb_spec b (length (acc ++ x))) as [G|G].
    + destruct (cut (length (acc ++ x)) b (acc ++ x)) as [o r] eqn:C. apply cut_spec in C; [|exact Hb|lia]. destruct C as [C [F [S N]]].
      specialize (IH r Hb S). destruct (deliver b r t) as [l|].
      * destruct IH as [I1 [I2 [I3 I4]]]. rewrite Forall_forall in F. split; [|split; [|split]].
        { rewrite concat_app, I1. cbn [concat]. rewrite !app_assoc, C. reflexivity. }
        { intros p I. apply in_app_or in I as [I|I]; [rewrite (F p I); lia|auto]. }
        { intros p I. rewrite removelast_app in I by exact I4. apply in_app_or in I as [I|I]; auto. }
        { destruct o; [exact I4|discriminate]. }
      * exfalso. destruct r as [|y r]; [|discriminate]. apply N; [|reflexivity]. intros X. rewrite X in G. cbn in G. lia.
    + specialize (IH (acc ++ x) Hb G). cbn [concat]. rewrite app_assoc. exact IH.
Qed.
Lemma shard_scan_spec : forall {A} rank w b (batches : list (list A)) out, 0 < w -> 0 < b -> shard_scan rank w b batches = Some out ->
  concat out = take_idx (concat batches) (pyrange rank (length (concat batches)) w) /\
  (forall p, In p out -> 0 < length p <= b) /\ (forall p, In p (removelast out) -> length p = b).
Proof.
  intros A rank w b batches out Hw Hb H. unfold shard_scan in H. destruct (shard_batches w rank batches) as [l|] eqn:E; [|discriminate].
  apply shard_batches_spec in E; [|exact Hw]. cbn [obind] in H. pose proof (deliver_spec b l [] Hb ltac:(cbn; lia)) as D. rewrite H in D.
  destruct D as [D1 [D2 [D3 _]]]. cbn in D1. rewrite D1, E. auto.
Qed.
(* if the ranks' scans do not fail, they partition the filtered rows *)
Lemma filtered_partition : forall {A} w b (batches : list (list A)) (outs : nat -> list (list A)), 0 < w -> 0 < b ->
  (forall rank, rank < w -> shard_scan rank w b batches = Some (outs rank)) ->
  Permutation (flat_map (fun rank => concat (outs rank)) (seq 0 w)) (concat batches).
Proof.
  intros A w b batches outs Hw Hb H.
  rewrite (flat_map_ext' _ (fun rank => take_idx (concat batches) (pyrange rank (length (concat batches)) w))).
  - apply (fragments_partition (concat batches) w Hw).
  - intros rank I. apply in_seq in I. destruct (shard_scan_spec rank w b batches (outs rank) Hw Hb) as [E _]; [apply H; lia|exact E].
Qed.
(* batches of at least world - 1 rows never make the scan fail; a rank without
   any row does *)
Lemma shard_batches_ok : forall {A} w (batches : list (list A)) skip, 0 < w -> skip < w -> Forall (fun b => w - 1 <= length b) batches ->
  exists out, shard_batches w skip batches = Some out.
Proof.
  intros A w batches. induction batches as [|b t IH]; intros skip Hw Hs F; cbn [shard_batches]; [eauto|]. inversion F; subst.
  destruct (Nat.ltb_spec (length b) skip); [lia|]. destruct (IH ((w - length (skipn skip b) mod w) mod w)) as [o E]; auto; [apply Nat.mod_upper_bound; lia|].
  rewrite E. eauto.
Qed.
Lemma shard_scan_ok : forall {A} rank w b (batches : list (list A)), 0 < w -> 0 < b -> rank < w -> Forall (fun x => w - 1 <= length x) batches ->
  rank < length (concat batches) -> exists out, shard_scan rank w b batches = Some out.
Proof.
  intros A rank w b batches Hw Hb Hr F L. unfold shard_scan. destruct (shard_batches_ok w batches rank Hw Hr F) as [l E]. rewrite E. cbn [obind].
  pose proof (deliver_spec b l [] Hb ltac:(cbn; lia)) as D. destruct (deliver b [] l) as [o|]; [eauto|]. exfalso.
  apply shard_batches_spec in E; [|exact Hw]. cbn in D. rewrite D in E.
  assert (I : In rank (pyrange rank (length (concat batches)) w)) by (apply pyrange_In; [exact Hw|]; exists 0; lia).
  destruct (nth_error (concat batches) rank) as [x|] eqn:N; [|apply nth_error_None in N; lia].
  assert (X : In x (take_idx (concat batches) (pyrange rank (length (concat batches)) w))).
  { apply in_flat_map. exists rank. split; [exact I|]. rewrite N. left. reflexivity. }
  rewrite <- E in X. destruct X.
Qed.
(* a filtered batch with one row, rank 2 of 3: the rows are not delivered at all *)
Lemma short_batch_refuted : exists (batches : list (list nat)), shard_scan 2 3 10 batches = None /\ length (concat batches) = 5.
Proof. exists [[0]; [1; 2; 3; 4]]. split; reflexivity. Qed.
(* a rank for which there is no row raises instead of yielding nothing *)
Lemma no_rows_refuted : exists (batches : list (list nat)), shard_scan 1 2 10 batches = None /\ shard_scan 0 2 10 batches = Some [[0]].
Proof. exists [[0]]. split; reflexivity. Qed.
(* the shuffle buffer delivers each batch once *)
Lemma reservoir_perm : forall {A} k (heap s out : list A), reservoir k heap s out -> Permutation (heap ++ s) out.
Proof.
  intros A k heap s out H. induction H.
  - rewrite app_nil_r. assumption.
  - rewrite <- IHreservoir. cbn. symmetry. apply Permutation_middle.
  - rewrite <- IHreservoir. transitivity ((x :: heap) ++ s); [cbn; symmetry; apply Permutation_middle|]. rewrite H0. reflexivity.
Qed.
Lemma keep_heap_spec : forall {A} k (heap s out : list A), keep_heap k heap s out -> length heap <= k ->
  length out = Nat.min k (length heap + length s) /\ exists dropped, Permutation (heap ++ s) (out ++ dropped).
Proof.
  intros A k heap s out H. induction H; intros L.
  - split; [cbn; lia|]. exists []. reflexivity.
  - destruct IHkeep_heap as [E [d P]]; [cbn; lia|]. cbn in E. split; [cbn; lia|]. exists d. rewrite <- P. cbn. symmetry. apply Permutation_middle.
  - apply Permutation_length in H0 as HL. cbn in HL. destruct IHkeep_heap as [E [d P]]; [lia|]. split; [cbn; lia|]. exists (y :: d).
    transitivity ((x :: heap) ++ s); [cbn; symmetry; apply Permutation_middle|]. rewrite H0. cbn. rewrite P. apply Permutation_middle.
Qed.
Lemma keep_heap_exists : forall {A} k (s heap : list A), 0 < k -> exists out, keep_heap k heap s out.
Proof.
  intros A k s. induction s as [|x s IH]; intros heap Hk; [eexists; constructor|].
  destruct (le_lt_dec k (length heap)).
  - destruct (IH heap Hk) as [o Ho]. exists o. apply keep_swap with (y := x) (heap' := heap); auto.
  - destruct (IH (x :: heap) Hk) as [o Ho]. exists o. apply keep_push; auto.
Qed.

(* ---- C58 ---- *)
Lemma buffer_concat : forall {A} b (takes : list (list A)) buf, concat (buffer_takes b buf takes) = buf ++ concat takes.
Proof.
  intros A b takes. induction takes as [|t r IH]; intros buf; cbn [buffer_takes].
  - destruct buf; cbn; rewrite ?app_nil_r; reflexivity.
  - destruct (b <=? length (buf ++ t)); cbn [concat]; rewrite IH; cbn; rewrite <- ?app_assoc; reflexivity.
Qed.
Definition starts (chunk j m : nat) : list nat := map (fun k => 0 + k * chunk) (seq j m).
Lemma sample_rows : forall n chunk css total rnd m j num,
  (forall k, j <= k < j + m -> let ls := Nat.min chunk (total - k * chunk) in Nat.min css ls < ls -> rnd k < ls - Nat.min css ls) ->
  let out := concat (sample_chunks (starts chunk j m) j num n chunk css total rnd) in
  NoDup out /\ forall x, In x out -> j * chunk <= x < total.
Proof.
  intros n chunk css total rnd. induction m as [|m IH]; intros j num R; cbn [starts seq map sample_chunks].
  - split; [constructor|intros x []].
  - destruct (n <=? num); [split; [constructor|intros x []]|].
    change (map (fun k : nat => 0 + k * chunk) (seq (S j) m)) with (starts chunk (S j) m).
    cbv zeta. destruct (IH (S j) (num + css)) as [N B]; [intros k Hk; apply R; lia|].
    set (ls := Nat.min chunk (total - (0 + j * chunk))) in *. set (off := if Nat.min css ls <? ls then _ else _).
    assert (O : j * chunk <= off /\ off + Nat.min css ls <= j * chunk + ls).
    { specialize (R j ltac:(lia)). cbn zeta in R. cbn [Nat.add] in ls. fold ls in R. subst off. destruct (Nat.ltb_spec (Nat.min css ls) ls); [specialize (R H)|]; lia. }
    cbn [concat]. split.
    + assert (G : forall (u v : list nat), NoDup u -> NoDup v -> (forall z, In z u -> In z v -> False) -> NoDup (u ++ v)).
      { clear. induction u as [|z u IH]; intros v Nu Nv D; [exact Nv|]. inversion Nu; subst. cbn. constructor.
        - rewrite in_app_iff. intros [I|I]; [auto|]. apply (D z); [left; reflexivity|exact I].
        - apply IH; auto. intros w Iw Iv. apply (D w); [right; exact Iw|exact Iv]. }
      apply G; [apply seq_NoDup|exact N|]. intros z I1 I2. apply in_seq in I1. apply B in I2. subst ls. nia.
    + intros x I. apply in_app_or in I as [I|I]; [apply in_seq in I; subst ls; lia|apply B in I; nia].
Qed.
Lemma sample_upper : forall n chunk css total rnd m j, j * css < n + css ->
  j * css + length (concat (sample_chunks (starts chunk j m) j (j * css) n chunk css total rnd)) < n + css.
Proof.
  intros n chunk css total rnd. induction m as [|m IH]; intros j L; cbn [starts seq map sample_chunks].
  - cbn. lia.
  - destruct (Nat.leb_spec n (j * css)); [cbn; lia|].
    change (map (fun k : nat => 0 + k * chunk) (seq (S j) m)) with (starts chunk (S j) m). cbv zeta. cbn [concat]. rewrite app_length, seq_length.
    replace (j * css + css) with (S j * css) by lia. specialize (IH (S j) ltac:(cbn; lia)). cbn in IH |- *. lia.
Qed.
Lemma sample_full : forall n chunk css total rnd mt d m j, mt = j + d -> d <= m -> css <= chunk -> mt * chunk <= total -> (forall k, k < mt -> k * css < n) ->
  length (concat (sample_chunks (starts chunk j m) j (j * css) n chunk css total rnd)) =
  d * css + length (concat (sample_chunks (starts chunk mt (m - d)) mt (mt * css) n chunk css total rnd)).
Proof.
  intros n chunk css total rnd mt. induction d as [|d IH]; intros m j E L C T K.
  - replace mt with j by lia. rewrite Nat.sub_0_r. reflexivity.
  - destruct m as [|m]; [lia|]. cbn [starts seq map sample_chunks]. destruct (Nat.leb_spec n (j * css)); [specialize (K j ltac:(lia)); lia|].
    change (map (fun k : nat => 0 + k * chunk) (seq (S j) m)) with (starts chunk (S j) m). cbv zeta. cbn [concat]. rewrite app_length, seq_length.
    replace (j * css + css) with (S j * css) by lia. rewrite (IH m (S j)) by (auto; lia).
    assert (chunk <= total - (0 + j * chunk)). { assert ((S j) * chunk <= mt * chunk) by (apply Nat.mul_le_mono_r; lia). cbn in *. lia. }
    cbn [Nat.sub]. rewrite (Nat.min_l chunk) by assumption. rewrite Nat.min_l by assumption. cbn. lia.
Qed.
(* the sampled rows are distinct and in range; their number differs from n by
   less than max_takes below and n / max_takes above, and is n when max_takes
   divides n *)
Lemma efficient_sample_spec : forall total n batch_size max_takes rnd, 0 < max_takes -> max_takes < n -> n < total ->
  rnd_ok (pyrange 0 total (total / max_takes)) (total / max_takes) (n / max_takes) total rnd ->
  exists out, efficient_sample total n batch_size max_takes rnd = Some out /\ NoDup (concat out) /\ (forall x, In x (concat out) -> x < total) /\
    n - n mod max_takes <= length (concat out) < n + n / max_takes /\ (n mod max_takes = 0 -> length (concat out) = n).
Proof.
  intros total n b mt rnd Hm Hn Ht R. unfold efficient_sample.
  pose proof (Nat.div_mod total mt ltac:(lia)) as DT. pose proof (Nat.mod_upper_bound total mt ltac:(lia)) as MT.
  pose proof (Nat.div_mod n mt ltac:(lia)) as DN. pose proof (Nat.mod_upper_bound n mt ltac:(lia)) as MN.
  assert (CS : n / mt <= total / mt) by (apply Nat.div_le_mono; lia).
  assert (C1 : 1 <= n / mt) by (apply Nat.div_le_lower_bound; lia).
  set (chunk := total / mt) in *. set (css := n / mt) in *.
  destruct (Nat.leb_spec total n); [lia|]. destruct (Nat.eqb_spec mt 0); [lia|]. destruct (Nat.eqb_spec chunk 0); [lia|]. cbn [orb].
  eexists. split; [reflexivity|]. rewrite buffer_concat. cbn [app].
  set (m := (total - 0 + (chunk - 1)) / chunk).
  assert (PS : pyrange 0 total chunk = starts chunk 0 m) by reflexivity.
  assert (ML : mt <= m).
  { destruct mt as [|k]; [lia|]. apply (proj2 (ceil_pos (total - 0) chunk k ltac:(lia))). nia. }
  rewrite PS.
  destruct (sample_rows n chunk css total rnd m 0 0) as [N B].
  { intros k Hk. apply (R k (k * chunk)). rewrite PS. unfold starts. rewrite nth_error_map.
    rewrite (nth_error_nth' (seq 0 m) 0) by (rewrite seq_length; lia). rewrite seq_nth by lia. reflexivity. }
  split; [exact N|]. split; [intros x I; apply B in I; lia|].
  pose proof (sample_upper n chunk css total rnd m 0 ltac:(lia)) as U. cbn [Nat.mul Nat.add] in U.
  assert (K : forall k, k < mt -> k * css < n) by (intros k Hk; nia).
  pose proof (sample_full n chunk css total rnd mt mt m 0 eq_refl ML CS ltac:(lia) K) as FU. cbn [Nat.mul Nat.add] in FU.
  split; [split; [nia|exact U]|]. intros Z. rewrite FU.
  assert (NE : n = mt * css) by lia.
  destruct (m - mt) as [|q]; cbn [starts seq map sample_chunks].
  - cbn. lia.
  - destruct (Nat.leb_spec n (mt * css)); [cbn; lia|lia].
Qed.
(* neither bound can be dropped: 6 of 7 rows, 10 of 9 rows *)
Lemma sample_too_few_refuted : exists total n b mt rnd out, mt < n /\ n < total /\ rnd_ok (pyrange 0 total (total / mt)) (total / mt) (n / mt) total rnd /\
  efficient_sample total n b mt rnd = Some out /\ length (concat out) < n.
Proof.
  exists 100, 7, 10, 2, (fun _ => 0), [[0; 1; 2; 50; 51; 52]]. split; [lia|]. split; [lia|]. split; [|split; [reflexivity|cbn; lia]].
  intros k i E ls. change (7 / 2) with 3. lia.
Qed.
Lemma sample_too_many_refuted : exists total n b mt rnd out, mt < n /\ n < total /\ rnd_ok (pyrange 0 total (total / mt)) (total / mt) (n / mt) total rnd /\
  efficient_sample total n b mt rnd = Some out /\ n < length (concat out).
Proof.
  exists 11, 9, 20, 4, (fun _ => 0), [[0; 1; 2; 3; 4; 5; 6; 7; 8; 9]]. split; [lia|]. split; [lia|]. split; [|split; [reflexivity|cbn; lia]].
  intros k i E ls. lia.
Qed.
Lemma choice_spec : forall {A} b fuel (choices : list A) idx, 0 < b -> length choices - idx < fuel ->
  concat (choice_batches fuel b idx choices) = skipn idx choices /\ (forall p, In p (choice_batches fuel b idx choices) -> 0 < length p <= b).
Proof.
  intros A b fuel. induction fuel as [|fuel IH]; intros choices idx Hb L; [lia|]. cbn [choice_batches].
  destruct (Nat.ltb_spec idx (length choices)).
  - destruct (IH choices (idx + b) Hb) as [C P]; [lia|]. split.
    + cbn. rewrite C. rewrite <- (skipn_skipn' b idx) || rewrite <- (skipn_skipn' idx b). 
      destruct (le_lt_dec (length choices) (idx + b)).
      * rewrite Nat.min_r by lia. rewrite firstn_all2 by (rewrite skipn_length; lia). rewrite (skipn_all2 (skipn idx choices)) by (rewrite skipn_length; lia). apply app_nil_r.
      * rewrite Nat.min_l by lia. replace (idx + b - idx) with b by lia. apply firstn_skipn.
    + intros p [<-|I]; [rewrite firstn_length, skipn_length; lia|auto].
  - rewrite skipn_all2 by lia. split; [reflexivity|intros p []].
Qed.
(* n distinct choices are delivered in full *)
Lemma choice_all : forall {A} b (choices : list A), 0 < b -> concat (choice_batches (S (length choices)) b 0 choices) = choices.
Proof. intros A b choices Hb. destruct (choice_spec b (S (length choices)) choices 0 Hb) as [C _]; [lia|exact C]. Qed.

Lemma filtered_prefix : forall {A} b (shards : list (list A)) remaining target counted tables,
  exists rest, tables ++ firstn remaining (concat shards) = concat (filtered_loop b remaining target counted tables shards) ++ rest.
Proof.
  intros A b shards. induction shards as [|m t IH]; intros remaining target counted tables.
  - cbn. rewrite firstn_nil. eexists. reflexivity.
  - cbn [filtered_loop]. destruct m as [|a m]; [apply IH|]. set (M := a :: m) in *.
    set (m' := firstn remaining M). set (rem' := remaining - length m').
    assert (E : firstn remaining (concat (M :: t)) = m' ++ firstn rem' (concat t)).
    { cbn [concat]. rewrite firstn_app. f_equal. f_equal. subst rem' m'. rewrite firstn_length. lia. }
    rewrite E, app_assoc. destruct (target <=? counted + length m').
    + destruct (Nat.eqb_spec rem' 0) as [Z|Z].
      * rewrite Z. cbn. rewrite !app_nil_r. exists (skipn b (tables ++ m')). symmetry. apply firstn_skipn.
      * destruct (IH rem' (Nat.min b rem') (length (skipn b (tables ++ m'))) (skipn b (tables ++ m'))) as [rest R]. exists rest. cbn [concat].
        rewrite <- (app_assoc (firstn b (tables ++ m'))), <- R, app_assoc, firstn_skipn. reflexivity.
    + destruct (Nat.eqb_spec rem' 0) as [Z|Z]; [exists ((tables ++ m') ++ firstn rem' (concat t)); reflexivity|]. apply IH.
Qed.
(* with a batch size of at least n: all n rows in one batch, or nothing *)
Lemma filtered_one_batch : forall {A} b (shards : list (list A)) remaining target counted tables,
  length tables = counted -> counted + remaining = target -> target <= b -> 0 < remaining ->
  filtered_loop b remaining target counted tables shards =
  if remaining <=? length (concat shards) then [tables ++ firstn remaining (concat shards)] else [].
Proof.
  intros A b shards. induction shards as [|m t IH]; intros remaining target counted tables LT E TB P.
  - cbn. destruct remaining; [lia|reflexivity].
  - cbn [filtered_loop]. destruct m as [|a m]; [apply IH; assumption|]. set (M := a :: m) in *.
    assert (LM : length (firstn remaining M) = Nat.min remaining (length M)) by apply firstn_length.
    assert (LC : length (concat (M :: t)) = length M + length (concat t)) by (cbn [concat]; apply app_length). rewrite LC.
    destruct (Nat.leb_spec target (counted + length (firstn remaining M))).
    + assert (remaining <= length M) by lia. replace (remaining - length (firstn remaining M) =? 0) with true by (symmetry; apply Nat.eqb_eq; lia).
      destruct (Nat.leb_spec remaining (length M + length (concat t))); [|lia]. f_equal.
      rewrite firstn_all2 by (rewrite app_length; lia). f_equal. cbn [concat]. rewrite firstn_app. replace (remaining - length M) with 0 by lia.
      cbn. rewrite app_nil_r. reflexivity.
    + assert (LM' : length M < remaining) by lia. destruct (Nat.eqb_spec (remaining - length (firstn remaining M)) 0); [lia|].
      rewrite IH; [|rewrite app_length; lia|lia|lia|lia]. rewrite LM, Nat.min_r by lia.
      destruct (Nat.leb_spec (remaining - length M) (length (concat t))), (Nat.leb_spec remaining (length M + length (concat t))); try lia; [|reflexivity].
      f_equal. rewrite (firstn_all2 M) by lia. cbn [concat]. rewrite firstn_app, (firstn_all2 M) by lia. rewrite <- app_assoc. reflexivity.
Qed.
Lemma filtered_sample_one_batch : forall total n b tt keep shards, 0 < n -> n <= b ->
  filtered_sample total n b tt keep shards =
  let matches := flat_map (fun s => filter keep (shard_rows total (ceil_div n tt) s)) shards in
  if n <=? length matches then [firstn n matches] else [].
Proof.
  intros total n b tt keep shards P L. unfold filtered_sample. rewrite Nat.min_r by exact L. rewrite filtered_one_batch by (auto; lia).
  rewrite <- flat_map_concat_map. reflexivity.
Qed.
(* the shards cover all rows *)
Lemma shards_cover : forall total n tt, 0 < ceil_div n tt ->
  flat_map (shard_rows total (ceil_div n tt)) (seq 0 (num_shards total n tt)) = seq 0 total.
Proof.
  intros total n tt P. unfold num_shards. set (s := ceil_div n tt) in *.
  assert (G : forall k, flat_map (shard_rows total s) (seq 0 k) = seq 0 (Nat.min (k * s) total)).
  { induction k as [|k IH]; [reflexivity|]. rewrite seq_S, flat_map_app, IH. cbn [Nat.add flat_map]. rewrite app_nil_r. unfold shard_rows.
    destruct (le_lt_dec (k * s) total).
    - rewrite (Nat.min_l (k * s)) by assumption. replace (Nat.min (S k * s) total) with (k * s + (Nat.min (k * s + s) total - k * s)) by (cbn; lia).
      rewrite seq_app. reflexivity.
    - replace (Nat.min (k * s + s) total - k * s) with 0 by lia. cbn [seq]. rewrite app_nil_r. f_equal. cbn. lia. }
  rewrite G. f_equal. apply Nat.min_r. unfold ceil_div. pose proof (ceil_pos total s).
  destruct (le_lt_dec total ((total + (s - 1)) / s * s)) as [|C]; [assumption|]. apply (ceil_pos total s _ P) in C. lia.
Qed.
(* every yielded row is a distinct matching row, and at most n are yielded *)
Lemma filtered_sample_sound : forall total n b tt keep shards, NoDup shards ->
  let out := concat (filtered_sample total n b tt keep shards) in
  NoDup out /\ length out <= n /\ forall x, In x out -> x < total /\ keep x = true.
Proof.
  intros total n b tt keep shards ND. unfold filtered_sample.
  destruct (filtered_prefix b (map (fun s => filter keep (shard_rows total (ceil_div n tt) s)) shards) n (Nat.min b n) 0 []) as [rest E].
  cbn [app] in E. rewrite <- flat_map_concat_map in E. set (out := concat _) in *. cbv zeta.
  set (M := flat_map (fun s => filter keep (shard_rows total (ceil_div n tt) s)) shards) in *.
  assert (NM : NoDup M).
  { apply NoDup_flat_map; [exact ND|intros x _; apply NoDup_filter, seq_NoDup|]. intros x y z _ _ Zx Zy. apply filter_In in Zx as [Zx _]. apply filter_In in Zy as [Zy _].
    unfold shard_rows in *. apply in_seq in Zx, Zy. set (s := ceil_div n tt) in *. clearbody s. clear - Zx Zy.
    destruct (lt_eq_lt_dec x y) as [[H|H]|H]; [|exact H|]; exfalso.
    - assert ((x + 1) * s <= y * s) by (apply Nat.mul_le_mono_r; lia). lia.
    - assert ((y + 1) * s <= x * s) by (apply Nat.mul_le_mono_r; lia). lia. }
  assert (EM : M = out ++ rest ++ skipn n M) by (rewrite app_assoc, <- E; symmetry; apply firstn_skipn).
  split; [|split].
  - rewrite EM in NM. clear - NM. induction out as [|a out IH]; [constructor|]. cbn in NM. inversion NM; subst. constructor; [|auto].
    intros I. apply H1. apply in_or_app. left. exact I.
  - apply (f_equal (@length nat)) in E. rewrite firstn_length, app_length in E. lia.
  - intros x I. assert (In x M) by (rewrite EM; apply in_or_app; left; exact I). apply in_flat_map in H as [s [_ H]]. apply filter_In in H as [H K].
    split; [|exact K]. unfold shard_rows in H. apply in_seq in H. lia.
Qed.
(* rows are lost: fewer matches than asked for (all of them lost), or more than a
   batch in one shard (the rest of the shard lost) *)
Lemma filtered_few_matches_refuted : exists total n b tt keep shards, Permutation shards (seq 0 (num_shards total n tt)) /\ n < total /\
  length (filter keep (seq 0 total)) = 4 /\ n = 5 /\ filtered_sample total n b tt keep shards = [].
Proof. exists 10, 5, 10, 5, (fun x => x <? 4), (seq 0 10). repeat split; auto. lia. Qed.
Lemma filtered_leftover_refuted : exists total n b tt keep shards, Permutation shards (seq 0 (num_shards total n tt)) /\ n < total /\
  filter keep (seq 0 total) = seq 0 total /\ n = 10 /\ length (concat (filtered_sample total n b tt keep shards)) = 4.
Proof. exists 20, 10, 4, 1, (fun _ => true), [0; 1]. repeat split; auto. lia. Qed.

Example fragments_ex : shard_fragments [10; 11; 12; 13; 14] 1 2 = [11; 13]. Proof. reflexivity. Qed.
Example ranges_ex : gen_ranges 1 2 3 11 = [(3, 6); (9, 11)]. Proof. reflexivity. Qed.
Example shard_scan_ex : shard_scan 1 3 2 [[0; 1]; [2; 3; 4; 5]; [6; 7; 8; 9; 10; 11; 12; 13]] = Some [[1; 4]; [7; 10]; [13]]. Proof. reflexivity. Qed.
Example sample_ex : efficient_sample 11 9 100 3 (fun k => k mod 1) = Some [[0; 1; 2; 3; 4; 5; 6; 7; 8]]. Proof. reflexivity. Qed.
Example filtered_ex : filtered_sample 20 6 10 3 Nat.even [4; 1; 0; 2; 3; 5; 6; 7; 8; 9] = [[8; 2; 0; 4; 6; 10]]. Proof. reflexivity. Qed.
