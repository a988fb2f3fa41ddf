(* Chunks of strings in the mini-block layout. *)
From Coq Require Import List Arith NArith ZArith Bool Lia.
From Verif Require Import Lib SerdeModel SerdeProofs RepDefModel FullZipModel FullZipProofs FullZipRead FullZipPage FullZipVar MiniModel MiniProofs MiniSched MiniBytes MiniPage MiniRead.
Import ListNotations.
Local Open Scope nat_scope.

Lemma sums_at : forall vals off i, i <= length vals -> nth i (sums off vals) 0 = off + length (concat (firstn i vals)).
Proof.
  induction vals as [|v vals IH]; intros off i H; [cbn in H; assert (i = 0) by lia; subst i; cbn; lia|]. destruct i as [|i]; [cbn; lia|]. cbn [sums nth firstn concat length] in *. rewrite IH by lia. rewrite app_length. lia.
Qed.
Lemma sums_shift : forall vs off lo K, lo <= off -> map (fun x => x - lo + K) (sums off vs) = sums (off - lo + K) vs.
Proof. induction vs as [|v vs IH]; intros off lo K H; [reflexivity|]. cbn [sums map]. rewrite IH by lia. f_equal. f_equal. lia. Qed.
Lemma sums_last : forall vs off, nth (length vs) (sums off vs) 0 = off + length (concat vs).
Proof. intros vs off. rewrite sums_at by lia. now rewrite firstn_all. Qed.
Lemma sums_bound : forall vs off, Forall (fun x => x <= off + length (concat vs)) (sums off vs).
Proof. induction vs as [|v vs IH]; intros off; [constructor; [lia|constructor]|]. cbn [sums concat]. rewrite app_length. constructor; [lia|]. eapply Forall_impl; [|apply IH]. cbv beta. intros; lia. Qed.
Lemma chunks_front : forall n l rest fuel, 0 < n -> length (flat_map (le_bytes n) l ++ rest) <= fuel -> exists f', chunks_exact fuel n (flat_map (le_bytes n) l ++ rest) = map (le_bytes n) l ++ chunks_exact f' n rest.
Proof.
  intros n l rest. induction l as [|x l IH]; intros fuel P F; [exists fuel; reflexivity|]. cbn [flat_map] in *. rewrite <- app_assoc in *. destruct fuel as [|fuel]; [rewrite app_length, le_bytes_length in F; lia|]. cbn [chunks_exact]. rewrite (proj2 (Nat.ltb_ge _ _)) by (rewrite app_length, le_bytes_length; lia).
  assert (L := le_bytes_length n x). assert (S := skip_front _ (le_bytes n x) (flat_map (le_bytes n) l ++ rest)). rewrite L in S. rewrite S. rewrite firstn_app, L, Nat.sub_diag, firstn_O, app_nil_r, firstn_all2 by lia. destruct (IH fuel P) as [f' E]; [rewrite app_length, L in F; lia|]. exists f'. rewrite E. reflexivity.
Qed.

Section Strings.
Context (vals : list (list N)) (NA : Forall (fun v => length v < 256) vals) (NE : vals <> []).
Notation offs := (sums 0 vals).
Notation data := (concat vals).
Notation n := (length vals).
Definition slice (s e : nat) : list (list N) := firstn (e - s) (skipn s vals).
Definition size (s e : nat) : nat := (e - s + 1) * 4 + length (concat (slice s e)).
Lemma at_diff : forall s e, s <= e <= n -> nth e offs 0 - nth s offs 0 = length (concat (slice s e)).
Proof.
  intros s e H. rewrite !sums_at by lia. unfold slice. assert (E : firstn e vals = firstn s vals ++ firstn (e - s) (skipn s vals)).
  { rewrite <- (firstn_skipn s (firstn e vals)). rewrite firstn_firstn, Nat.min_l by lia. rewrite skipn_firstn_comm. reflexivity. }
  rewrite E, concat_app, app_length. lia.
Qed.
Lemma slice_len : forall s e, s <= e <= n -> length (slice s e) = e - s.
Proof. intros s e H. unfold slice. rewrite firstn_length, skipn_length. lia. Qed.
Lemma slice_narrow : forall s e, s <= e <= n -> length (concat (slice s e)) <= (e - s) * 255.
Proof.
  intros s e H. rewrite <- (slice_len s e H). assert (F : Forall (fun v => length v < 256) (slice s e)).
  { apply Forall_forall. intros x X. rewrite Forall_forall in NA. apply NA. unfold slice in X. rewrite <- (firstn_skipn s vals). apply in_or_app. right. rewrite <- (firstn_skipn (e - s) (skipn s vals)). apply in_or_app. left. exact X. }
  clear -F. induction F as [|v l V F IH]; [cbn; lia|]. cbn [concat length]. rewrite app_length. lia.
Qed.
Lemma offs_len : length offs = S n.
Proof. apply sums_length. Qed.
Lemma search_ok : forall fuel num last k, num = 2 ^ k -> last + num <= n -> (N.of_nat (size last (last + num)) <= 4096)%N ->
  let e := search_next fuel offs last num in last + num <= e <= n /\ (N.of_nat (size last e) <= 4096)%N /\ (e = n \/ exists j, e - last = 2 ^ j).
Proof.
  induction fuel as [|fuel IH]; intros num last k P B SZ; cbn [search_next].
  - split; [lia|]. split; [exact SZ|]. right. exists k. lia.
  - rewrite offs_len. replace (S n - 1) with n by lia. destruct (Nat.leb_spec (S n) (last + 2 * num)) as [Q|Q].
    + destruct (N.leb _ _) eqn:C.
      * apply N.leb_le in C. rewrite at_diff in C by lia. split; [lia|]. split; [unfold size; replace (n - last + 1) with (S n - last) by lia; lia|auto].
      * split; [lia|]. split; [exact SZ|]. right. exists k. lia.
    + destruct (N.leb _ _) eqn:C.
      * apply N.leb_le in C. rewrite at_diff in C by lia. assert (SZ2 : (N.of_nat (size last (last + 2 * num)) <= 4096)%N) by (unfold size; replace (last + 2 * num - last + 1) with (2 * num + 1) by lia; lia).
        destruct (IH (2 * num) last (S k) ltac:(rewrite P; cbn; lia) ltac:(lia) SZ2) as (A & B1 & C1). split; [lia|]. auto.
      * split; [lia|]. split; [exact SZ|]. right. exists k. lia.
Qed.
Lemma search_start : forall last, last < n -> let e := search_next (length offs) offs last 1 in last < e <= n /\ (N.of_nat (size last e) <= 4096)%N /\ (e = n \/ exists j, e - last = 2 ^ S j).
Proof.
  intros last H e. assert (S1 : (N.of_nat (size last (last + 1)) <= 4096)%N) by (unfold size; assert (Q := slice_narrow last (last + 1) ltac:(lia)); lia).
  destruct (search_ok (length offs) 1 last 0 eq_refl ltac:(lia) S1) as (A & B & C). fold e in A, B, C. split; [lia|]. split; [exact B|]. destruct C as [C|[j C]]; [auto|]. destruct j as [|j]; [|right; eauto].
  left. cbn in C. subst e. revert A C. rewrite offs_len. cbn [search_next]. rewrite offs_len. replace (S n - 1) with n by lia. destruct (Nat.leb_spec (S n) (last + 2 * 1)) as [Q|Q].
  - destruct (N.leb _ _); lia.
  - assert (C2 : N.leb (N.of_nat (nth (last + 2 * 1) offs 0 - nth last offs 0 + (2 * 1 + 1) * 4)) 4096 = true).
    { apply N.leb_le. rewrite at_diff by lia. assert (R := slice_narrow last (last + 2 * 1) ltac:(lia)). lia. }
    rewrite C2. assert (S2 : (N.of_nat (size last (last + 2)) <= 4096)%N) by (unfold size; assert (R := slice_narrow last (last + 2) ltac:(lia)); lia).
    destruct (search_ok n 2 last 1 eq_refl ltac:(lia) S2) as (A & _). change (2 * 1) with 2. intros _ C. lia.
Qed.
Definition string_part (final : bool) (c : nat * nat) : part := {| t_log := if final then 0 else Nat.log2 (snd c - fst c); t_bytes := binary_chunk offs data c; t_vals := slice (fst c) (snd c) |}.
Lemma chunk_eq : forall s e, s <= e <= n -> exists pad, binary_chunk offs data (s, e) = u32_bytes (sums ((e - s + 1) * 4) (slice s e)) ++ concat (slice s e) ++ pad /\ length (binary_chunk offs data (s, e)) = (size s e + 3) / 4 * 4.
Proof.
  intros s e H. unfold binary_chunk. rewrite at_diff by exact H. rewrite (sums_at vals 0 s) by lia. cbn [Nat.add].
  assert (VE : vals = firstn s vals ++ slice s e ++ skipn (e - s) (skipn s vals)) by (unfold slice; rewrite firstn_skipn, firstn_skipn; reflexivity).
  set (a := firstn s vals) in *. set (b := slice s e) in *. set (c := skipn (e - s) (skipn s vals)) in *. assert (LA : length a = s) by (unfold a; rewrite firstn_length; lia). assert (LB : length b = e - s) by (apply slice_len; exact H).
  assert (O : firstn (e - s + 1) (skipn s offs) = sums (length (concat a)) b).
  { rewrite VE at 1. rewrite <- LB, Nat.add_1_r. rewrite <- LA at 1. rewrite sums_skip. cbn [Nat.add]. apply sums_first. }
  rewrite O, sums_shift by lia. rewrite Nat.sub_diag. cbn [Nat.add].
  assert (D : firstn (length (concat b)) (skipn (length (concat a)) data) = concat b).
  { rewrite VE, !concat_app. rewrite skip_front, firstn_app, Nat.sub_diag, firstn_O, app_nil_r, firstn_all. reflexivity. }
  rewrite D. set (u := u32_bytes (sums ((e - s + 1) * 4) b) ++ concat b).
  assert (LU : length u = size s e).
  { unfold u, size. fold b. rewrite app_length. unfold u32_bytes. rewrite flat_map_concat_map. assert (Q : forall l : list nat, length (concat (map (fun x => le_bytes 4 (trunc 4 (N.of_nat x))) l)) = length l * 4) by (induction l as [|x l IH]; [reflexivity|]; cbn [map concat length]; rewrite app_length, le_bytes_length, IH; lia). rewrite Q, sums_length, LB. lia. }
  exists (repeat 72%N (pad4 (length u))). split; [unfold u; rewrite <- app_assoc; reflexivity|]. rewrite app_length, repeat_length, LU. unfold pad4. set (z := size s e).
  assert (DM := Nat.div_mod z 4 ltac:(lia)). assert (MB := Nat.mod_upper_bound z 4 ltac:(lia)). set (q := z / 4) in *. set (r := z mod 4) in *. rewrite DM. replace (4 * q + r + 3) with (r + 3 + q * 4) by lia. rewrite Nat.div_add by lia. do 4 (destruct r as [|r]; [cbn; lia|]). lia.
Qed.
Lemma chunk_decodes : forall s e, s < e <= n -> (N.of_nat (size s e) <= 4096)%N -> binary_decode (binary_chunk offs data (s, e)) (length (slice s e)) = Some (slice s e ++ []).
Proof.
  intros s e H SZ. destruct (chunk_eq s e ltac:(lia)) as [pad [E LE]]. rewrite slice_len by lia. set (b := slice s e) in *. assert (LB : length b = e - s) by (apply slice_len; lia). set (m := e - s) in *. set (K := (m + 1) * 4) in *. unfold binary_decode.
  assert (D4 : (size s e + 3) / 4 * 4 >= size s e) by (assert (Q := Nat.div_mod (size s e + 3) 4 ltac:(lia)); assert (R := Nat.mod_upper_bound (size s e + 3) 4 ltac:(lia)); lia).
  assert (S8 : 8 <= size s e) by (unfold size; lia). rewrite LE. rewrite (proj2 (Nat.ltb_ge _ 8)) by lia. rewrite Nat.mod_mul by lia. change (negb (0 =? 0)) with false. cbn match. rewrite <- LE, E.
  assert (BD : Forall (fun x => (N.of_nat x < 4294967296)%N) (sums K b)) by (eapply Forall_impl; [|apply sums_bound]; cbv beta; intros x X; unfold size in SZ; fold m b in SZ; fold K in SZ; lia).
  assert (U : u32_bytes (sums K b) = flat_map (le_bytes 4) (map N.of_nat (sums K b))).
  { unfold u32_bytes. clear -BD. induction BD as [|x l X F IH]; [reflexivity|]. cbn [flat_map map]. rewrite IH, trunc_id by exact X. reflexivity. }
  assert (UL : length (u32_bytes (sums K b)) = K) by (rewrite U, flat_le_length, map_length, sums_length, LB; unfold K; lia).
  destruct (chunks_front 4 (map N.of_nat (sums K b)) (concat b ++ pad) (length (u32_bytes (sums K b) ++ concat b ++ pad)) ltac:(lia) ltac:(rewrite U; lia)) as [f' CF]. rewrite U at 2. rewrite CF.
  assert (ID : map (fun x => N.to_nat (of_le_bytes (le_bytes 4 x))) (map N.of_nat (sums K b)) = sums K b).
  { rewrite map_map. rewrite <- (map_id (sums K b)) at 2. apply map_ext_in. intros x X. rewrite Forall_forall in BD. rewrite of_le_bytes_le by (apply (BD x X)). apply Nat2N.id. }
  set (tailo := chunks_exact f' 4 (concat b ++ pad)). set (front := map (le_bytes 4) (map N.of_nat (sums K b))) in *. assert (LF : length front = S m) by (unfold front; rewrite !map_length, sums_length, LB; reflexivity).
  assert (C1 : cut 0 (m + 1) (front ++ tailo) = Some front) by (assert (Q := cut_mid _ [] front tailo); cbn [app length Nat.add] in Q; rewrite LF in Q; replace (m + 1) with (S m) by lia; exact Q). rewrite C1. cbn [obind]. unfold front. rewrite (map_map (le_bytes 4)), ID.
  assert (N0 : nth 0 (sums K b) 0 = K) by (destruct b; reflexivity). rewrite N0. assert (NL := sums_last b K). rewrite LB in NL. rewrite NL.
  assert (C2 : cut K (K + length (concat b)) (u32_bytes (sums K b) ++ concat b ++ pad) = Some (concat b)) by (rewrite <- UL at 1 2; apply cut_mid). rewrite C2. cbn [obind].
  assert (W := windows_sums b [] []). cbn [app length] in W. rewrite app_nil_r in W. rewrite app_nil_r. rewrite <- W. f_equal. rewrite <- (map_map (fun x => x - K) N.of_nat). f_equal.
  assert (Q := sums_shift b K K 0 ltac:(lia)). rewrite Nat.sub_diag in Q. cbn [Nat.add] in Q. rewrite <- Q. apply map_ext. intros; lia.
Qed.
Fixpoint string_parts (cuts : list (nat * nat)) : list part := match cuts with [] => [] | c :: t => string_part (match t with [] => true | _ => false end) c :: string_parts t end.
Lemma slice_app : forall s e, s <= e <= n -> slice s e ++ skipn e vals = skipn s vals.
Proof. intros s e H. unfold slice. rewrite <- (firstn_skipn (e - s) (skipn s vals)) at 2. f_equal. rewrite skipn_skipn'. f_equal. lia. Qed.
Lemma cuts_ok : forall fuel last, last < n -> n - last <= fuel -> let cuts := binary_cuts fuel offs last in
  cuts <> [] /\ parts_ok binary_decode (string_parts cuts) /\ flat_map t_vals (string_parts cuts) = skipn last vals /\ Forall (fun c => fst c < snd c <= n /\ (N.of_nat (size (fst c) (snd c)) <= 4096)%N) cuts.
Proof.
  induction fuel as [|fuel IH]; intros last H F; [lia|]. cbn [binary_cuts]. rewrite offs_len. replace (S n - 1) with n by lia. destruct (search_start last H) as (A & B & C). rewrite offs_len in *. set (e := search_next (S n) offs last 1) in *. destruct (Nat.eqb_spec e n) as [E|E].
  - split; [discriminate|]. split; [|split].
    + cbn [string_parts parts_ok string_part t_bytes t_vals t_log fst snd]. split; [exists []; apply chunk_decodes; auto; lia|]. split; [reflexivity|]. auto.
    + cbn [string_parts flat_map string_part t_vals fst snd]. assert (Q := slice_app last e ltac:(lia)). rewrite (skipn_all2 vals) in Q by lia. exact Q.
    + constructor; [cbn [fst snd]; auto|constructor].
  - destruct C as [C|[j C]]; [congruence|]. destruct (IH e ltac:(lia) ltac:(lia)) as (I1 & I2 & I3 & I4). set (cuts := binary_cuts fuel offs e) in *. split; [discriminate|]. split; [|split].
    + cbn [string_parts]. destruct cuts as [|c0 cuts]; [congruence|]. cbn [string_part]. cbn [parts_ok t_bytes t_vals t_log fst snd]. split; [exists []; apply chunk_decodes; auto; lia|]. change (t_log (string_part false (last, e))) with (Nat.log2 (e - last)). change (t_vals (string_part false (last, e))) with (slice last e). rewrite C, Nat.log2_pow2 by lia.
      assert (JB : (N.of_nat (S j) < 16)%N).
      { unfold size in B. rewrite C in B. destruct (N.lt_ge_cases (N.of_nat (S j)) 16) as [Q|Q]; [exact Q|]. assert (HH : 2 ^ 11 <= 2 ^ S j) by (apply Nat.pow_le_mono_r; lia). assert (KK : (N.of_nat (2 ^ 11) = 2048)%N) by (vm_compute; reflexivity). set (z := 2 ^ 11) in *. clearbody z. lia. }
      split; [exact JB|]. split; [|exact I2]. cbn [string_parts]. split; [lia|]. rewrite slice_len by lia. exact C.
    + change (flat_map t_vals (string_parts ((last, e) :: cuts))) with (slice last e ++ flat_map t_vals (string_parts cuts)). rewrite I3. apply slice_app. lia.
    + constructor; [cbn [fst snd]; auto|exact I4].
Qed.
Lemma strings_blocks : let ps := string_parts (binary_cuts (length offs) offs 0) in binary_blocks offs data = blocks_parts ps /\ parts_ok binary_decode ps /\ ps <> [] /\ flat_map t_vals ps = vals /\ Forall (fun t => (N.of_nat (4 * length (t_vals t) + length (t_bytes t)) <= 8191)%N /\ t_vals t <> []) ps.
Proof.
  assert (NP : 0 < n) by (destruct vals; [congruence|cbn; lia]). destruct (cuts_ok (length offs) 0 NP ltac:(rewrite offs_len; lia)) as (A & B & C & D). unfold binary_blocks. set (cuts := binary_cuts (length offs) offs 0) in *.
  cbv zeta. split; [|split; [exact B|split; [|split; [exact C|]]]].
  - unfold blocks_parts. f_equal.
    + clear. induction cuts as [|c cuts IH]; [reflexivity|]. cbn [flat_map string_parts string_part t_bytes]. rewrite IH. reflexivity.
    + assert (M : forall f c, fst c < snd c <= n /\ (N.of_nat (size (fst c) (snd c)) <= 4096)%N -> binary_meta f offs c = (t_log (string_part f c), length (t_bytes (string_part f c)))).
      { intros f [s e] [M1 M2]. cbn [fst snd] in *. unfold binary_meta. rewrite at_diff by lia. cbn [string_part t_log t_bytes fst snd]. destruct (chunk_eq s e ltac:(lia)) as [pad [_ E]]. rewrite E. fold (size s e). f_equal. rewrite trunc_id; [apply Nat2N.id|]. change (2 ^ (8 * N.of_nat 2))%N with 65536%N. assert (Q := Nat.div_mod (size s e + 3) 4 ltac:(lia)). lia. }
      clear B C. induction cuts as [|c cuts IH]; [congruence|]. inversion D as [|? ? D1 D2]; subst. destruct cuts as [|c1 cuts].
      * cbn. rewrite M by exact D1. reflexivity.
      * change (removelast (c :: c1 :: cuts)) with (c :: removelast (c1 :: cuts)). cbn [map string_parts app]. rewrite M by exact D1. f_equal. assert (R := IH ltac:(discriminate) D2). cbn [string_parts map] in R. rewrite <- R. f_equal. cbn [rev]. destruct (rev cuts ++ [c1]) as [|x l] eqn:Q; [apply app_eq_nil in Q as [_ Q]; discriminate|]. cbn [app]. reflexivity.
  - destruct cuts; [congruence|discriminate].
  - clear B C A. induction D as [|c cuts [D1 D2] F IH]; [constructor|]. cbn [string_parts]. constructor; [|exact IH]. destruct c as [s e]. cbn [string_part t_vals t_bytes fst snd] in *. destruct (chunk_eq s e ltac:(lia)) as [pad [_ E]]. rewrite E, slice_len by lia. split; [|intros Q; apply (f_equal (@length _)) in Q; rewrite slice_len in Q by lia; cbn in Q; lia].
    assert (Q := Nat.div_mod (size s e + 3) 4 ltac:(lia)). unfold size in *. lia.
Qed.
End Strings.
(* a chunk has at least eight strings, unless it is the last one *)
Section Eight.
Context (vals : list (list N)) (NA : Forall (fun v => length v < 256) vals).
Notation offs := (sums 0 vals).
Notation n := (length vals).
Lemma search_step : forall fuel num last, 0 < num <= 4 -> last + num <= n -> search_next (S fuel) offs last num = n \/ (last + 2 * num <= n /\ search_next (S fuel) offs last num = search_next fuel offs last (2 * num)).
Proof.
  intros fuel num last P B. cbn [search_next]. rewrite (offs_len vals). replace (S n - 1) with n by lia. destruct (Nat.leb_spec (S n) (last + 2 * num)) as [Q|Q].
  - left. rewrite (proj2 (N.leb_le _ _)); [reflexivity|]. rewrite at_diff by lia. assert (R := slice_narrow vals NA last n ltac:(lia)). lia.
  - right. split; [lia|]. rewrite (proj2 (N.leb_le _ _)); [reflexivity|]. rewrite at_diff by lia. assert (R := slice_narrow vals NA last (last + 2 * num) ltac:(lia)). lia.
Qed.
Lemma search_eight : forall last, last < n -> search_next (length offs) offs last 1 = n \/ last + 8 <= search_next (length offs) offs last 1.
Proof.
  intros last H. rewrite offs_len. destruct (search_step n 1 last ltac:(lia) ltac:(lia)) as [Q|[B1 Q]]; [auto|]. rewrite Q. clear Q. change (2 * 1) with 2 in *. assert (E1 : exists n1, n = S (S n1)) by (exists (n - 2); lia). destruct E1 as [n1 E1]. rewrite E1 at 1 3.
  destruct (search_step (S n1) 2 last ltac:(lia) ltac:(lia)) as [Q|[B2 Q]]; [left; exact Q|]. rewrite Q. clear Q. change (2 * 2) with 4 in *. destruct (search_step n1 4 last ltac:(lia) ltac:(lia)) as [Q|[B3 Q]]; [left; exact Q|]. rewrite Q. right.
  assert (SZ : (N.of_nat (size vals last (last + 8)) <= 4096)%N) by (unfold size; assert (R := slice_narrow vals NA last (last + 8) ltac:(lia)); lia).
  change (2 * 4) with 8. destruct (search_ok vals n1 8 last 3 eq_refl ltac:(lia) SZ) as (A & _). lia.
Qed.
Lemma cuts_eight : forall fuel last, last < n -> Forall (fun k => 8 <= k) (removelast (lens (string_parts vals (binary_cuts fuel offs last)))).
Proof.
  induction fuel as [|fuel IH]; intros last H; [constructor|]. cbn [binary_cuts]. rewrite (offs_len vals) at 2. replace (S n - 1) with n by lia. assert (SE := search_eight last H). destruct (search_start vals NA last H) as (A & _). set (e := search_next (length offs) offs last 1) in *. destruct (Nat.eqb_spec e n) as [E|E]; [constructor|].
  specialize (IH e ltac:(lia)). cbn [string_parts lens map]. destruct (binary_cuts fuel offs e) as [|c cuts]; [constructor|]. change (removelast (?x :: lens (string_parts vals (c :: cuts)))) with (x :: removelast (lens (string_parts vals (c :: cuts)))). cbn [string_part t_vals fst snd]. constructor; [|exact IH]. rewrite slice_len by lia. lia.
Qed.
End Eight.
Lemma long_chunk : forall L rows pre c post, Forall (row_ok L) rows -> concat rows = pre ++ c ++ post -> count L c = 0 -> c <> [] -> exists r, In r rows /\ length c < length r.
Proof.
  intros L. induction rows as [|r rows IH]; intros pre c post F E Z NE.
  - apply (f_equal (@length _)) in E. rewrite !app_length in E. destruct c; [congruence|]. cbn in E. lia.
  - inversion F as [|? ? F1 F2]; subst. cbn [concat] in E. destruct r as [|h t]; [destruct F1|]. destruct F1 as [H1 H2]. assert (HS : forall x, count L (h :: x) <> 0) by (intros x; unfold count; cbn [filter]; unfold st; rewrite (proj2 (Nat.eqb_eq _ _) H1); discriminate).
    destruct pre as [|p pre]; [destruct c as [|x c]; [congruence|]; cbn [app] in E; injection E as <- _; destruct (HS _ Z)|]. cbn [app] in E. injection E as <- E.
    destruct (Nat.le_gt_cases (length t) (length pre)) as [Q|Q].
    + rewrite <- (firstn_skipn (length t) pre), <- app_assoc in E. apply app_split in E as [_ E]; [|rewrite firstn_length; lia]. destruct (IH _ _ _ F2 E Z NE) as [r [R1 R2]]. exists r. split; [right; exact R1|exact R2].
    + rewrite <- (firstn_skipn (length pre) t), <- app_assoc in E. apply app_split in E as [E0 E]; [|rewrite firstn_length; lia]. set (u := skipn (length pre) t) in *. assert (LU : length u = length t - length pre) by (unfold u; apply skipn_length). destruct (Nat.le_gt_cases (length c) (length u)) as [W|W].
      * exists (h :: t). split; [left; reflexivity|]. cbn [length]. lia.
      * exfalso. rewrite <- (firstn_skipn (length u) c), <- app_assoc in E. apply app_split in E as [E1 E]; [|rewrite firstn_length; lia]. rewrite <- (firstn_skipn (length u) c), count_app in Z. assert (LC : length (skipn (length u) c) = length c - length u) by apply skipn_length. destruct (skipn (length u) c) as [|x c']; [cbn in LC; lia|].
        destruct rows as [|[|h' t'] rows]; [discriminate E| inversion F2 as [|? ? X]; destruct X|]. apply Forall_inv in F2. destruct F2 as [X _]. cbn [concat app] in E. injection E as <- _. unfold count in Z. cbn [filter] in Z. unfold st in Z at 2. rewrite (proj2 (Nat.eqb_eq _ _) X) in Z. cbn in Z. lia.
Qed.
(* rows of no more items than every chunk holds start in every chunk *)
Lemma small_rows : forall ms hd ipr rows dec ps m s, mini_ok ms hd ipr rows -> has_lists ms = true -> parts_ok dec ps -> ps <> [] -> flat_map t_vals ps = page_vals rows ->
  Forall (fun k => m <= k) (removelast (lens ps)) -> Forall (fun r => length r <= m) rows -> s < length rows -> row_clean (lists ms) (carve (lens ps) (concat rows)) s.
Proof.
  intros ms hd ipr rows dec ps m s OK H PO PN PV MK RM SL. destruct OK as (NE & IP & IO & RL & _). rewrite H in RL. destruct RL as (_ & RO & _). destruct (carved rows dec ps PO PN PV) as (CC & CN & _ & C2 & _). unfold cs in *. set (K := carve (lens ps) (concat rows)) in *.
  apply clean_starts.
  - rewrite CC. assert (Q : count (lists ms) (concat rows) = length rows); [|lia]. clear -RO. induction RO as [|r rows R F IH]; [reflexivity|]. cbn [concat length]. rewrite count_app, IH. destruct r as [|h t]; [destruct R|]. destruct R as [R1 R2]. unfold count. cbn [filter]. unfold st at 1. rewrite (proj2 (Nat.eqb_eq _ _) R1). cbn [length]. f_equal. clear -R2. assert (Z : filter (st (lists ms)) t = []); [|rewrite Z; reflexivity]. induction R2 as [|x t X F IH]; [reflexivity|]. cbn [filter]. unfold st at 1. rewrite (proj2 (Nat.eqb_neq _ _)) by lia. exact IH.
  - apply Forall_forall. intros c J. destruct (Nat.eq_0_gt_0_cases (count (lists ms) c)) as [Z|Z]; [exfalso|exact Z].
    assert (LM : m <= length c /\ c <> []).
    { assert (G : forall (a : list part) b, parts_ok dec a -> Forall2 (fun t c => t_vals t = flat_map vals_of c) a b -> Forall (fun k => m <= k) (removelast (lens a)) -> In c (removelast b) -> m <= length c /\ c <> []).
      { clear. intros a b P F. revert P. induction F as [|t d a b X F IH]; intros P M J; [destruct J|]. destruct b as [|d1 b]; [destruct J|]. inversion F as [|t1 ? a' ? X1 F1]; subst. change (removelast (d :: d1 :: b)) with (d :: removelast (d1 :: b)) in J. change (removelast (lens (t :: t1 :: a'))) with (length (t_vals t) :: removelast (lens (t1 :: a'))) in M. inversion M as [|? ? M1 M2]; subst. destruct P as (_ & _ & (P1 & P2) & P3). destruct J as [<-|J]; [|apply IH; auto].
        rewrite X in M1, P2. assert (V := vals_count d). assert (W : vcount shown d <= length d) by (unfold vcount; clear; induction d as [|x d IH]; [reflexivity|]; cbn [filter]; destruct (shown x); cbn [length]; lia). split; [lia|]. intros ->. cbn in P2. assert (Q := Nat.pow_nonzero 2 (t_log t)). lia. }
      apply (G ps K); auto. }
    destruct (in_split c (removelast K) J) as [a [b EK]]. assert (KN : K <> []) by (intros E; rewrite E in CN; destruct ps; [congruence|discriminate]).
    assert (E : concat rows = concat a ++ c ++ (concat b ++ last K [])) by (rewrite <- CC, (app_removelast_last [] KN) at 1; rewrite EK, !concat_app; cbn [concat]; rewrite app_nil_r, <- !app_assoc; reflexivity).
    destruct (long_chunk _ _ _ _ _ RO E Z (proj2 LM)) as [r [R1 R2]]. rewrite Forall_forall in RM. specialize (RM r R1). lia.
Qed.

(* ---- whole pages ---- *)
Lemma value_per : forall w, (N.of_nat (2 * w) < 8186)%N -> exists g per, vals_per_chunk w = Some (g, per).
Proof. intros w H. unfold vals_per_chunk. rewrite (proj2 (N.ltb_lt _ _) H). destruct (grow 12 1 (2 * w) 2) as [g per]. eauto. Qed.
(* values of a fixed width without lists: every page is written, and sorted ranges of rows read back *)
Theorem value_flat : forall ms hd ipr rows w rs ns, mini_ok ms hd ipr rows -> has_lists ms = false -> 0 < w -> (N.of_nat (2 * w) < 8186)%N -> Forall (fun v => length v = w) (page_vals rows) ->
  sorted 0 (length rows) rs -> Forall (fun n => 0 < n) ns -> sumn ns <= length (flat_map (pick rows) rs) ->
  exists b p, value_blocks w (page_vals rows) = Some b /\ encode_mini (page_levels ms hd rows) (length (page_vals rows)) b = Some p /\
    read_mini (value_decode w) p ipr rs ns = Some (map (batch_of ms hd) (groups ns (flat_map (pick rows) rs))).
Proof.
  intros ms hd ipr rows w rs ns OK H W W2 VW SO NP NS. destruct (value_per w W2) as [g [per VP]]. destruct (value_pages ms hd ipr rows w g per OK W VW VP) as [b [ps [p (A & B & C & D & E & F & G)]]]; [intros Q; congruence|].
  exists b, p. split; [exact A|]. split; [exact B|]. rewrite C in B. apply (mini_read ms hd ipr rows (value_decode w) ps p rs ns); auto. intros Q. congruence.
Qed.
(* with lists: a page that is written reads back whole *)
Theorem value_lists_scan : forall ms hd rows w ns, mini_ok ms hd 1 rows -> 0 < w -> (N.of_nat (2 * w) < 8186)%N -> Forall (fun v => length v = w) (page_vals rows) -> writable ms w rows ->
  Forall (fun n => 0 < n) ns -> sumn ns = length rows ->
  exists b p, value_blocks w (page_vals rows) = Some b /\ encode_mini (page_levels ms hd rows) (length (page_vals rows)) b = Some p /\
    read_mini (value_decode w) p 1 [(0, length rows)] ns = Some (map (batch_of ms hd) (groups ns rows)).
Proof.
  intros ms hd rows w ns OK W W2 VW WR NP NS. destruct (value_per w W2) as [g [per VP]]. destruct (value_pages ms hd 1 rows w g per OK W VW VP WR) as [b [ps [p (A & B & C & D & E & F & G)]]].
  exists b, p. split; [exact A|]. split; [exact B|]. rewrite C in B. apply (mini_scan ms hd 1 rows (value_decode w) ps p ns); auto.
Qed.
(* and any sorted ranges, if no row has more items than a chunk has values *)
Theorem value_lists_ranges : forall ms hd rows w g per rs ns, mini_ok ms hd 1 rows -> 0 < w -> vals_per_chunk w = Some (g, per) -> Forall (fun v => length v = w) (page_vals rows) -> writable ms w rows ->
  Forall (fun r => length r <= per) rows -> sorted 0 (length rows) rs -> Forall (fun n => 0 < n) ns -> sumn ns <= length (flat_map (pick rows) rs) ->
  exists b p, value_blocks w (page_vals rows) = Some b /\ encode_mini (page_levels ms hd rows) (length (page_vals rows)) b = Some p /\
    read_mini (value_decode w) p 1 rs ns = Some (map (batch_of ms hd) (groups ns (flat_map (pick rows) rs))).
Proof.
  intros ms hd rows w g per rs ns OK W VP VW WR SM SO NP NS. destruct (value_pages ms hd 1 rows w g per OK W VW VP WR) as [b [ps [p (A & B & C & D & E & F & G)]]].
  exists b, p. split; [exact A|]. split; [exact B|]. rewrite C in B. apply (mini_read ms hd 1 rows (value_decode w) ps p rs ns); auto. intros H.
  assert (MK : Forall (fun k => per <= k) (removelast (lens ps))) by (rewrite G; unfold chunk_sizes; rewrite removelast_last; apply Forall_forall; intros x X; apply repeat_spec in X; lia).
  assert (SL : Forall (fun r => fst r < length rows) rs) by (clear -SO; revert SO; generalize 0 as lo; induction rs as [|r rs IH]; intros lo S; [constructor|]; destruct S as (S1 & S2 & S3); constructor; [lia|eauto]).
  eapply Forall_impl; [|exact SL]. intros r R. cbv beta in R. eapply small_rows; eauto.
Qed.
(* strings of less than 256 bytes *)
Lemma string_pages : forall ms hd ipr rows, mini_ok ms hd ipr rows -> page_vals rows <> [] -> Forall (fun v => length v < 256) (page_vals rows) -> (has_lists ms = true -> length (concat rows) <= length (page_vals rows) + 2000) ->
  exists ps p, let b := binary_blocks (sums 0 (page_vals rows)) (concat (page_vals rows)) in encode_mini (page_levels ms hd rows) (length (page_vals rows)) b = Some p /\
    b = blocks_parts ps /\ parts_ok binary_decode ps /\ ps <> [] /\ flat_map t_vals ps = page_vals rows /\ Forall (fun k => 8 <= k) (removelast (lens ps)).
Proof.
  intros ms hd ipr rows OK NV NA RM. set (vals := page_vals rows) in *. destruct (strings_blocks vals NA NV) as (S1 & S2 & S3 & S4 & S5). set (ps := string_parts vals _) in *. exists ps.
  assert (S8 : Forall (fun k => 8 <= k) (removelast (lens ps))) by (apply cuts_eight; [exact NA|]; destruct vals; [congruence|cbn; lia]).
  destruct (carved rows binary_decode ps S2 S3 S4) as (CC & CN & _ & C2 & _). unfold cs in *. set (K := carve (lens ps) (concat rows)) in *.
  assert (IC : icount shown (concat rows) = length (concat rows) - length vals) by (assert (Q := vi_count shown (concat rows)); rewrite <- vals_count in Q; unfold vals, page_vals; lia).
  assert (SH := items_shown ms hd ipr rows OK).
  destruct (encode_some ms hd ipr rows binary_decode ps OK S2 S3 S4) as [p EP].
  - fold K. assert (GO : forall (l : list part) k, Forall2 (fun t c => t_vals t = flat_map vals_of c) l k -> (forall c, In c k -> In c K) -> Forall (fun t => (N.of_nat (4 * length (t_vals t) + length (t_bytes t)) <= 8191)%N /\ t_vals t <> []) l ->
      Forall2 (fun t c => (N.of_nat (length (lvs (has_lists ms) i_rep c) + length (lvs hd i_def c) + length (t_bytes t) + 20) <= 16384)%N) l k); [|apply GO; auto].
    intros l k F. induction F as [|x c l k V F IH]; intros J G; [constructor|]. inversion G as [|? ? [G1 G2] G3]; subst. constructor; [|apply IH; auto; intros d D; apply J; right; exact D].
    assert (IP := icount_part K c (J c (or_introl eq_refl))). rewrite CC, IC in IP. assert (LC := vi_count shown c). rewrite <- vals_count, <- V in LC.
    assert (LV : forall b f, length (lvs b f c) <= 2 * length c) by (intros [|] f; cbn [lvs]; [rewrite level_bytes_length, map_length; lia|cbn; lia]). assert (LV1 := LV (has_lists ms) i_rep). assert (LV2 := LV hd i_def). destruct (Bool.bool_dec (has_lists ms) true) as [H|H].
    + specialize (RM H). lia.
    + apply not_true_is_false in H. specialize (SH ltac:(rewrite H; reflexivity)). assert (IZ : icount shown (concat rows) = 0) by (apply icount_vis; exact SH). rewrite H in *. cbn [lvs length] in *. lia.
  - intros H. fold K. clear -S5 C2. induction C2 as [|x c l k V C2 IH]; [constructor|]. inversion S5 as [|? ? [N0 N1] N2]; subst. constructor; [|auto]. intros ->. cbn in V. congruence.
  - exists p. cbv zeta. rewrite S1. auto 10.
Qed.
Theorem string_flat : forall ms hd ipr rows rs ns, mini_ok ms hd ipr rows -> has_lists ms = false -> Forall (fun v => length v < 256) (page_vals rows) ->
  sorted 0 (length rows) rs -> Forall (fun n => 0 < n) ns -> sumn ns <= length (flat_map (pick rows) rs) ->
  exists p, encode_mini (page_levels ms hd rows) (length (page_vals rows)) (binary_blocks (sums 0 (page_vals rows)) (concat (page_vals rows))) = Some p /\
    read_mini binary_decode p ipr rs ns = Some (map (batch_of ms hd) (groups ns (flat_map (pick rows) rs))).
Proof.
  intros ms hd ipr rows rs ns OK H NA SO NP NS. assert (NV : page_vals rows <> []).
  { assert (SH := items_shown ms hd ipr rows OK ltac:(rewrite H; reflexivity)). assert (IZ : icount shown (concat rows) = 0) by (apply icount_vis; exact SH). assert (Q := vi_count shown (concat rows)). rewrite <- vals_count in Q. assert (NI := items_ne ms hd ipr rows OK). intros E. unfold page_vals in E. rewrite E in Q. destruct (concat rows); [congruence|]. cbn in *. lia. }
  destruct (string_pages ms hd ipr rows OK NV NA) as [ps [p (B & C & D & E & F & G)]]; [intros; congruence|]. exists p. split; [exact B|]. rewrite C in B. apply (mini_read ms hd ipr rows binary_decode ps p rs ns); auto. intros Q. congruence.
Qed.
Theorem string_lists_scan : forall ms hd rows ns, mini_ok ms hd 1 rows -> page_vals rows <> [] -> Forall (fun v => length v < 256) (page_vals rows) -> length (concat rows) <= length (page_vals rows) + 2000 ->
  Forall (fun n => 0 < n) ns -> sumn ns = length rows ->
  exists p, encode_mini (page_levels ms hd rows) (length (page_vals rows)) (binary_blocks (sums 0 (page_vals rows)) (concat (page_vals rows))) = Some p /\
    read_mini binary_decode p 1 [(0, length rows)] ns = Some (map (batch_of ms hd) (groups ns rows)).
Proof.
  intros ms hd rows ns OK NV NA RM NP NS. destruct (string_pages ms hd 1 rows OK NV NA) as [ps [p (B & C & D & E & F & G)]]; [auto|]. exists p. split; [exact B|]. rewrite C in B. apply (mini_scan ms hd 1 rows binary_decode ps p ns); auto.
Qed.
(* and any sorted ranges, if no row has more than eight items *)
Theorem string_lists_ranges : forall ms hd rows rs ns, mini_ok ms hd 1 rows -> page_vals rows <> [] -> Forall (fun v => length v < 256) (page_vals rows) -> length (concat rows) <= length (page_vals rows) + 2000 ->
  Forall (fun r => length r <= 8) rows -> sorted 0 (length rows) rs -> Forall (fun n => 0 < n) ns -> sumn ns <= length (flat_map (pick rows) rs) ->
  exists p, encode_mini (page_levels ms hd rows) (length (page_vals rows)) (binary_blocks (sums 0 (page_vals rows)) (concat (page_vals rows))) = Some p /\
    read_mini binary_decode p 1 rs ns = Some (map (batch_of ms hd) (groups ns (flat_map (pick rows) rs))).
Proof.
  intros ms hd rows rs ns OK NV NA RM SM SO NP NS. destruct (string_pages ms hd 1 rows OK NV NA) as [ps [p (B & C & D & E & F & G)]]; [auto|]. exists p. split; [exact B|]. rewrite C in B. apply (mini_read ms hd 1 rows binary_decode ps p rs ns); auto. intros H.
  assert (SL : Forall (fun r => fst r < length rows) rs) by (clear -SO; revert SO; generalize 0 as lo; induction rs as [|r rs IH]; intros lo S; [constructor|]; destruct S as (S1 & S2 & S3); constructor; [lia|eauto]).
  eapply Forall_impl; [|exact SL]. intros r R. cbv beta in R. eapply small_rows; eauto.
Qed.
