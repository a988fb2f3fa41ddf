(* C52, C82: tags. *)
From Coq Require Import List Arith NArith ZArith Bool Lia String Ascii.
From Coq Require Import ZifyBool ZifyN ZifyNat.
From Verif Require Import Lib NamingModel NamingProofs CleanupModel CleanupProofs TagModel.
Import ListNotations.
Local Open Scope N_scope.
Local Open Scope list_scope.

(** * The grammar: words separated by single dots, the last of several not being "lock" *)
Definition word (alnum : N -> bool) (w : str) : Prop := w <> [] /\ Forall (fun c => alnum c = true \/ c = 45 \/ c = 95) w.
Definition dotted (w : str) (r : list str) : str := w ++ flat_map (fun x => 46 :: x) r.
Definition tag_grammar (alnum : N -> bool) (s : str) : Prop :=
  exists w r, s = dotted w r /\ word alnum w /\ Forall (word alnum) r /\ ~ (r <> [] /\ last r [] = lit "lock").

Lemma starts_iff : forall p s, starts_with s p = true <-> exists b, s = p ++ b.
Proof.
  induction p as [|c p IH]; intros s; [cbn; destruct s; split; eauto|]. destruct s as [|d s]; [cbn; split; [discriminate|intros [b H]; discriminate]|]. cbn [starts_with]. rewrite andb_true_iff, N.eqb_eq, IH. split.
  - intros [-> [b ->]]. exists b. reflexivity.
  - intros [b H]. injection H as -> ->. split; [reflexivity|eauto].
Qed.
Lemma ends_iff : forall s p, ends_with s p = true <-> exists a, s = a ++ p.
Proof.
  intros s p. split; [|intros [a ->]; apply ends_with_app]. unfold ends_with. rewrite andb_true_iff, str_eqb_spec. intros [_ E]. exists (firstn (List.length s - List.length p) s).
  rewrite <- E at 2. symmetry. apply firstn_skipn.
Qed.
Lemma contains_iff : forall s p, contains s p = true <-> exists a b, s = a ++ p ++ b.
Proof.
  induction s as [|c s IH]; intros p; cbn [contains]; rewrite orb_true_iff, starts_iff.
  - split; [intros [[b H]|H]; [exists [], b; exact H|discriminate]|intros [a [b H]]; left; destruct a; [exists b; exact H|discriminate]].
  - rewrite IH. split.
    + intros [[b H]|[a [b ->]]]; [exists [], b; exact H|exists (c :: a), b; reflexivity].
    + intros [[|x a] [b H]]; [left; exists b; exact H|right; injection H as -> ->; eauto].
Qed.
Fixpoint split_dots (s : str) : str * list str :=
  match s with [] => ([], []) | c :: t => let '(w, r) := split_dots t in if c =? 46 then ([], w :: r) else (c :: w, r) end.
Lemma dotted_split : forall s, dotted (fst (split_dots s)) (snd (split_dots s)) = s.
Proof.
  induction s as [|c t IH]; [reflexivity|]. cbn [split_dots]. destruct (split_dots t) as [w r]. cbn [fst snd] in IH. destruct (N.eqb_spec c 46) as [->|N]; cbn [fst snd]; unfold dotted in *; cbn; rewrite IH; reflexivity.
Qed.
Lemma split_app_dot : forall a t, split_dots (a ++ 46 :: t) = (fst (split_dots a), snd (split_dots a) ++ fst (split_dots t) :: snd (split_dots t)).
Proof.
  induction a as [|c a IH]; intros t; cbn [app split_dots]; [destruct (split_dots t); reflexivity|]. rewrite IH. destruct (split_dots a) as [w r]. cbn [fst snd]. destruct (c =? 46); reflexivity.
Qed.
Lemma split_nodot : forall w, ~ In 46 w -> split_dots w = (w, []).
Proof. induction w as [|c t IH]; intros H; [reflexivity|]. cbn [split_dots]. rewrite IH by (intros X; apply H; right; exact X). destruct (N.eqb_spec c 46) as [->|N]; [exfalso; apply H; left; reflexivity|reflexivity]. Qed.
Lemma split_dotted : forall r w, ~ In 46 w -> Forall (fun x => ~ In 46 x) r -> split_dots (dotted w r) = (w, r).
Proof.
  induction r as [|x r IH]; intros w W F; unfold dotted; cbn [flat_map]; [rewrite app_nil_r; apply split_nodot; exact W|]. inversion F as [|? ? F1 F2]; subst. change (46 :: x) with ([46] ++ x). rewrite <- app_assoc. cbn [app].
  rewrite split_app_dot. rewrite (split_nodot w W). cbn [fst snd app]. fold (dotted x r). rewrite (IH x F1 F2). reflexivity.
Qed.
Lemma split_nonempty_tail : forall s, contains s (lit "..") = false -> ends_with s (lit ".") = false -> Forall (fun x => x <> []) (snd (split_dots s)).
Proof.
  induction s as [|c t IH]; intros C E; [constructor|].
  assert (C' : contains t (lit "..") = false) by (apply not_true_is_false; intros X; apply contains_iff in X; destruct X as (a & b & ->); assert (Y : contains (c :: a ++ lit ".." ++ b) (lit "..") = true) by (apply contains_iff; exists (c :: a), b; reflexivity); congruence).
  destruct t as [|d t].
  - cbn. destruct (N.eqb_spec c 46) as [->|N]; [|constructor]. exfalso. vm_compute in E. discriminate.
  - assert (E' : ends_with (d :: t) (lit ".") = false) by (apply not_true_is_false; intros X; apply ends_iff in X; destruct X as (a & X); assert (Y : ends_with (c :: d :: t) (lit ".") = true) by (apply ends_iff; exists (c :: a); rewrite X; reflexivity); congruence).
    specialize (IH C' E'). cbn [split_dots] in *. destruct (split_dots t) as [w r]. destruct (N.eqb_spec c 46) as [->|N].
    + destruct (N.eqb_spec d 46) as [->|M]; cbn [snd] in *; [exfalso; assert (Y : contains (46 :: 46 :: t) (lit "..") = true) by (apply contains_iff; exists [], t; reflexivity); congruence|]. constructor; [discriminate|exact IH].
    + destruct (d =? 46); exact IH.
Qed.
Lemma last_cons : forall {A} (l : list A) x d, l <> [] -> last (x :: l) d = last l d.
Proof. intros A [|y l] x d H; [contradiction|reflexivity]. Qed.
Theorem grammar_exact : forall alnum s, alnum 46 = false -> (check_valid_ref alnum s = true <-> tag_grammar alnum s).
Proof.
  intros alnum s AD. unfold check_valid_ref. rewrite !andb_true_iff, !negb_true_iff. split.
  - intros [[[[[NE CH] S] E] L] C]. exists (fst (split_dots s)), (snd (split_dots s)). pose proof (dotted_split s) as DS. split; [symmetry; exact DS|].
    assert (CW : forall w, In w (fst (split_dots s) :: snd (split_dots s)) -> Forall (fun c => alnum c = true \/ c = 45 \/ c = 95) w).
    { clear S E L C NE DS. induction s as [|c t IH]; [intros w [<-|[]]; constructor|]. cbn [forallb] in CH. apply andb_prop in CH. destruct CH as [CC CH]. specialize (IH CH). cbn [split_dots]. destruct (split_dots t) as [w r]. cbn [fst snd] in IH.
      unfold tag_char in CC. destruct (N.eqb_spec c 46) as [->|N]; cbn [fst snd].
      - intros x [<-|I]; [constructor|]. apply IH. exact I.
      - intros x [<-|I]; [|apply IH; right; exact I]. constructor; [|apply IH; left; reflexivity]. rewrite !orb_true_iff, !N.eqb_eq in CC. destruct CC as [[[CC|CC]|CC]|CC]; auto. discriminate CC. }
    pose proof (split_nonempty_tail s C E) as NT. split; [|split].
    + split; [|apply CW; left; reflexivity]. intros W. destruct s as [|c t]; [discriminate|]. cbn [split_dots] in W. destruct (split_dots t) as [w r]. destruct (N.eqb_spec c 46) as [->|N]; [|discriminate]. assert (Y : starts_with (46 :: t) (lit ".") = true) by (apply starts_iff; exists t; reflexivity). congruence.
    + apply Forall_forall. intros x I. split; [rewrite Forall_forall in NT; apply NT; exact I|apply CW; right; exact I].
    + intros [R LK]. assert (X : ends_with s (lit ".lock") = true); [|congruence]. apply ends_iff. destruct (exists_last R) as [r' [x ER]]. rewrite ER, last_last in LK. subst x.
      exists (dotted (fst (split_dots s)) r'). rewrite <- DS at 1. rewrite ER. unfold dotted. rewrite flat_map_app, app_assoc. reflexivity.
  - intros (w & r & -> & [W1 W2] & R & LK).
    assert (ND : forall x, word alnum x -> ~ In 46 x).
    { intros x [_ F] I. rewrite Forall_forall in F. destruct (F _ I) as [X|[X|X]]; [congruence|discriminate..]. }
    assert (SP : split_dots (dotted w r) = (w, r)).
    { apply split_dotted; [apply ND; split; assumption|]. eapply Forall_impl; [|exact R]. exact ND. }
    assert (SEG : forall x, In x (w :: r) -> x <> []) by (intros x [<-|I]; [exact W1|rewrite Forall_forall in R; apply (R x I)]).
    repeat split.
    + unfold dotted. destruct w; [contradiction|reflexivity].
    + unfold dotted. rewrite forallb_app. apply andb_true_iff.
      assert (CH : forall x, word alnum x -> forallb (tag_char alnum) x = true).
      { intros x [_ F]. apply forallb_forall. intros c I. rewrite Forall_forall in F. unfold tag_char. rewrite !orb_true_iff, !N.eqb_eq. destruct (F c I) as [X|[X|X]]; auto. }
      split; [apply CH; split; assumption|]. clear SP LK SEG. induction R as [|x r X R IH]; [reflexivity|]. cbn [flat_map app forallb]. rewrite forallb_app, (CH x X), IH. unfold tag_char. cbn. destruct (alnum 46); reflexivity.
    + apply not_true_is_false. intros X. apply starts_iff in X. destruct X as [b X]. rewrite X in SP. cbn [lit list_ascii_of_string map app] in SP. change (N_of_ascii ".") with 46 in SP. cbn [split_dots] in SP. destruct (split_dots b). cbn in SP. injection SP as E1 _. apply (SEG w (or_introl eq_refl)). symmetry. exact E1.
    + apply not_true_is_false. intros X. apply ends_iff in X. destruct X as [a X]. rewrite X in SP. change (lit ".") with [46] in SP. rewrite split_app_dot in SP. cbn [split_dots fst snd] in SP. injection SP as _ E1. apply (SEG []); [right; rewrite <- E1; apply in_or_app; right; left; reflexivity|reflexivity].
    + apply not_true_is_false. intros X. apply ends_iff in X. destruct X as [a X]. rewrite X in SP. change (lit ".lock") with (46 :: lit "lock") in SP. rewrite split_app_dot in SP. change (split_dots (lit "lock")) with (lit "lock", @nil str) in SP. cbn [fst snd] in SP. injection SP as _ E1. apply LK. rewrite <- E1. split; [destruct (snd (split_dots a)); discriminate|apply last_last].
    + apply not_true_is_false. intros X. apply contains_iff in X. destruct X as (a & b & X). rewrite X in SP. change (lit ".." ++ b) with (46 :: 46 :: b) in SP. rewrite split_app_dot in SP. cbn [split_dots fst snd] in SP. destruct (split_dots b) as [p q]. cbn in SP. injection SP as _ E1. apply (SEG []); [right; rewrite <- E1; apply in_or_app; right; left; reflexivity|reflexivity].
Qed.
Example grammar_case : let al c := (48 <=? c) && (c <=? 57) || (97 <=? c) && (c <=? 122) in
  check_valid_ref al (lit "v1.2-rc_3") = true /\ check_valid_ref al (lit "a..b") = false /\ check_valid_ref al (lit "a.lock") = false /\ check_valid_ref al (lit "lock") = true /\ check_valid_ref al (lit "a/b") = false /\ al 46 = false.
Proof. vm_compute. repeat split. Qed.

(** * File names *)
(* the characters a name can have: char::is_alphanumeric on ASCII, and code points below 0x110000 *)
Definition alnum_contract (alnum : N -> bool) : Prop :=
  (forall c, c < 128 -> alnum c = (48 <=? c) && (c <=? 57) || (65 <=? c) && (c <=? 90) || (97 <=? c) && (c <=? 122)) /\ (forall c, alnum c = true -> c < 1114112).
Definition is_ascii (s : str) : Prop := Forall (fun c => c < 128) s.

Fixpoint unutf8 (fuel : nat) (s : str) : str :=
  match fuel with
  | O => []
  | S n => match s with
           | [] => []
           | b :: t => if b <? 128 then b :: unutf8 n t
                       else match t with
                            | [] => []
                            | b1 :: t1 => if b <? 224 then ((b - 192) * 64 + (b1 - 128)) :: unutf8 n t1
                                          else match t1 with
                                               | [] => []
                                               | b2 :: t2 => if b <? 240 then ((b - 224) * 4096 + (b1 - 128) * 64 + (b2 - 128)) :: unutf8 n t2
                                                             else match t2 with
                                                                  | [] => []
                                                                  | b3 :: t3 => ((b - 240) * 262144 + (b1 - 128) * 4096 + (b2 - 128) * 64 + (b3 - 128)) :: unutf8 n t3
                                                                  end
                                               end
                            end
           end
  end.
Lemma utf8_digits : forall c, exists q0 q1 q2 r0 r1 r2, c / 64 = q0 /\ c mod 64 = r0 /\ c / 64 mod 64 = r1 /\ c / 4096 = q1 /\ c / 4096 mod 64 = r2 /\ c / 262144 = q2 /\
  c = q0 * 64 + r0 /\ q0 = q1 * 64 + r1 /\ q1 = q2 * 64 + r2 /\ r0 < 64 /\ r1 < 64 /\ r2 < 64.
Proof.
  intros c. exists (c / 64), (c / 4096), (c / 262144), (c mod 64), (c / 64 mod 64), (c / 4096 mod 64).
  assert (E1 : c / 4096 = c / 64 / 64) by (rewrite N.div_div by discriminate; reflexivity).
  assert (E2 : c / 262144 = c / 4096 / 64) by (rewrite N.div_div by discriminate; reflexivity).
  pose proof (N.div_mod' c 64) as D0. pose proof (N.div_mod' (c / 64) 64) as D1. pose proof (N.div_mod' (c / 4096) 64) as D2.
  pose proof (N.mod_lt c 64 ltac:(discriminate)). pose proof (N.mod_lt (c / 64) 64 ltac:(discriminate)). pose proof (N.mod_lt (c / 4096) 64 ltac:(discriminate)).
  rewrite <- E1 in D1. rewrite <- E2 in D2. repeat split; try assumption; lia.
Qed.
Lemma utf8_length : forall c, (1 <= List.length (utf8 c))%nat.
Proof. intros c. unfold utf8. destruct (c <? 128), (c <? 2048), (c <? 65536); cbn; lia. Qed.
Lemma unutf8_one : forall c n t, c < 1114112 -> unutf8 (S n) (utf8 c ++ t) = c :: unutf8 n t.
Proof.
  intros c n t H. unfold utf8. destruct (utf8_digits c) as (q0 & q1 & q2 & r0 & r1 & r2 & E0 & E1 & E2 & E3 & E4 & E5 & A & B & C & R0 & R1 & R2).
  rewrite ?E0, ?E1, ?E2, ?E3, ?E4, ?E5. clear E0 E1 E2 E3 E4 E5. destruct (N.ltb_spec c 128); [cbn [app unutf8]; destruct (N.ltb_spec c 128); [reflexivity|lia]|].
  destruct (N.ltb_spec c 2048); [cbn [app unutf8]; destruct (N.ltb_spec (192 + q0) 128); [lia|]; destruct (N.ltb_spec (192 + q0) 224); [|lia]; f_equal; lia|].
  destruct (N.ltb_spec c 65536); cbn [app unutf8].
  - destruct (N.ltb_spec (224 + q1) 128); [lia|]; destruct (N.ltb_spec (224 + q1) 224); [lia|]; destruct (N.ltb_spec (224 + q1) 240); [|lia]; f_equal; lia.
  - destruct (N.ltb_spec (240 + q2) 128); [lia|]; destruct (N.ltb_spec (240 + q2) 224); [lia|]; destruct (N.ltb_spec (240 + q2) 240); [lia|]; f_equal; lia.
Qed.
Lemma unutf8_bytes : forall s n, Forall (fun c => c < 1114112) s -> (List.length s <= n)%nat -> unutf8 n (bytes s) = s.
Proof.
  induction s as [|c s IH]; intros n F L; [destruct n; reflexivity|]. destruct n as [|n]; [cbn in L; lia|]. inversion F; subst. unfold bytes. cbn [flat_map]. rewrite unutf8_one by assumption. f_equal. apply IH; [assumption|cbn in L; lia].
Qed.
Lemma bytes_injective : forall a b, Forall (fun c => c < 1114112) a -> Forall (fun c => c < 1114112) b -> bytes a = bytes b -> a = b.
Proof.
  intros a b A B E. pose proof (unutf8_bytes a (List.length a + List.length b) A ltac:(lia)) as X. pose proof (unutf8_bytes b (List.length a + List.length b) B ltac:(lia)) as Y. congruence.
Qed.
Lemma bytes_small : forall s, Forall (fun c => c < 1114112) s -> Forall (fun b => b < 256) (bytes s).
Proof.
  intros s F. unfold bytes. apply Forall_flat_map. eapply Forall_impl; [|exact F]. intros c H. cbv beta in H.
  unfold utf8. destruct (utf8_digits c) as (q0 & q1 & q2 & r0 & r1 & r2 & E0 & E1 & E2 & E3 & E4 & E5 & A & B & C & R0 & R1 & R2).
  rewrite ?E0, ?E1, ?E2, ?E3, ?E4, ?E5. destruct (N.ltb_spec c 128); [repeat constructor; lia|]. destruct (N.ltb_spec c 2048); [repeat constructor; lia|]. destruct (N.ltb_spec c 65536); repeat constructor; lia.
Qed.
Definition unhex (h : N) : N := if h <? 58 then h - 48 else h - 55.
Fixpoint unpercent (s : str) : str :=
  match s with
  | [] => []
  | c :: t => if c =? 37 then match t with h :: t1 => match t1 with l :: t2 => (unhex h * 16 + unhex l) :: unpercent t2 | [] => [] end | [] => [] end else c :: unpercent t
  end.
Lemma unhex_hex : forall d, d < 16 -> unhex (hex d) = d.
Proof. intros d H. unfold hex, unhex. destruct (N.ltb_spec d 10); [destruct (N.ltb_spec (48 + d) 58); lia|destruct (N.ltb_spec (55 + d) 58); lia]. Qed.
Lemma percent_special : memN 37 special = true. Proof. reflexivity. Qed.
Lemma unpercent_encode : forall s, Forall (fun b => b < 256) s -> unpercent (flat_map encode_byte s) = s.
Proof.
  induction s as [|b s IH]; intros F; [reflexivity|]. inversion F; subst. cbn [flat_map]. unfold encode_byte at 1. destruct ((b <? 32) || (127 <=? b) || memN b special) eqn:E; cbn [app unpercent].
  - rewrite N.eqb_refl, IH by assumption. f_equal. rewrite !unhex_hex; [pose proof (N.div_mod' b 16); lia|apply N.mod_lt; discriminate|apply N.div_lt_upper_bound; lia].
  - destruct (N.eqb_spec b 37) as [->|X]; [rewrite percent_special, !orb_true_r in E; discriminate|]. rewrite IH by assumption. reflexivity.
Qed.
Lemma tag_file_enc : forall name, tag_file name = flat_map encode_byte name ++ lit ".json".
Proof.
  intros name. unfold tag_file, part.
  assert (X : forall p, (List.length p <= 2)%nat -> str_eqb (name ++ lit ".json") p = false).
  { intros p L. apply not_true_is_false. intros E. apply str_eqb_spec in E. apply (f_equal (@List.length N)) in E. rewrite app_length in E. change (List.length (lit ".json")) with 5%nat in E. lia. }
  rewrite !X by (cbn; lia). rewrite flat_map_app. reflexivity.
Qed.
Lemma tag_file_injective : forall a b, Forall (fun c => c < 256) a -> Forall (fun c => c < 256) b -> tag_file a = tag_file b -> a = b.
Proof. intros a b A B E. rewrite !tag_file_enc in E. apply app_inv_tail in E. pose proof (unpercent_encode a A). pose proof (unpercent_encode b B). congruence. Qed.
Lemma accepted_chars : forall alnum s, alnum_contract alnum -> check_valid_ref alnum s = true -> Forall (fun c => c < 1114112) s.
Proof.
  intros alnum s [A1 A2] H. unfold check_valid_ref in H. rewrite !andb_true_iff in H. destruct H as [[[[[_ F] _] _] _] _]. apply Forall_forall. intros c I. rewrite forallb_forall in F. specialize (F c I). unfold tag_char in F.
  rewrite !orb_true_iff, !N.eqb_eq in F. destruct F as [[[F | -> ] | -> ] | -> ]; [exact (A2 c F)|lia..].
Qed.
Definition file_of (tag : str) : str := tag_file (bytes tag).
Theorem distinct_tags_distinct_files : forall alnum a b, alnum_contract alnum -> check_valid_ref alnum a = true -> check_valid_ref alnum b = true -> file_of a = file_of b -> a = b.
Proof.
  intros alnum a b C A B E. pose proof (accepted_chars _ _ C A) as FA. pose proof (accepted_chars _ _ C B) as FB.
  apply bytes_injective; [exact FA|exact FB|]. apply tag_file_injective; [apply bytes_small; exact FA|apply bytes_small; exact FB|exact E].
Qed.
Lemma bytes_ascii : forall s, is_ascii s -> bytes s = s.
Proof. induction s as [|c s IH]; intros F; [reflexivity|]. inversion F; subst. unfold bytes. cbn [flat_map]. fold (bytes s). rewrite IH by assumption. unfold utf8. destruct (N.ltb_spec c 128); [reflexivity|lia]. Qed.
Lemma accepted_plain : forall alnum s, alnum_contract alnum -> check_valid_ref alnum s = true -> forall c, In c s -> c < 128 -> encode_byte c = [c].
Proof.
  intros alnum s [A1 A2] H c I L. unfold check_valid_ref in H. rewrite !andb_true_iff in H. destruct H as [[[[[_ F] _] _] _] _]. rewrite forallb_forall in F. specialize (F c I). unfold tag_char in F. rewrite (A1 c L) in F. clear A1 A2 I.
  assert (X : In c (nrange 0 128)) by (apply nrange_In; lia). assert (Y : forallb (fun c => negb ((48 <=? c) && (c <=? 57) || (65 <=? c) && (c <=? 90) || (97 <=? c) && (c <=? 122) || (c =? 46) || (c =? 45) || (c =? 95)) || str_eqb (encode_byte c) [c]) (nrange 0 128) = true) by (vm_compute; reflexivity).
  rewrite forallb_forall in Y. specialize (Y c X). cbv beta in Y. rewrite F in Y. apply str_eqb_spec. exact Y.
Qed.
Theorem ascii_file_name : forall alnum s, alnum_contract alnum -> check_valid_ref alnum s = true -> is_ascii s -> file_of s = s ++ lit ".json".
Proof.
  intros alnum s C H A. unfold file_of. rewrite bytes_ascii by exact A. rewrite tag_file_enc. f_equal. pose proof (accepted_plain alnum s C H) as P. unfold is_ascii in A. rewrite Forall_forall in A. clear H.
  induction s as [|c s IH]; [reflexivity|]. cbn [flat_map]. rewrite (P c (or_introl eq_refl) (A c (or_introl eq_refl))). cbn [app]. f_equal. apply IH; intros; [apply A|apply P]; try right; assumption.
Qed.

(** * The operations on the directory *)
Lemma lookup_In : forall f d v, lookup f d = Some v -> In (f, v) d.
Proof. induction d as [|[g w] d IH]; intros v H; [discriminate|]. cbn in H. destruct (str_eqb f g) eqn:E; [apply str_eqb_spec in E; subst; injection H as ->; left; reflexivity|right; exact (IH v H)]. Qed.
Lemma lookup_none : forall f d, lookup f d = None <-> ~ In f (map fst d).
Proof.
  induction d as [|[g w] d IH]; [split; [intros _ []|reflexivity]|]. cbn. destruct (str_eqb f g) eqn:E.
  - apply str_eqb_spec in E. subst. split; [discriminate|intros N; exfalso; apply N; left; reflexivity].
  - rewrite IH. split; [intros H [->|I]; [|exact (H I)]|intros H I; apply H; right; exact I]. assert (X : str_eqb f f = true) by (apply str_eqb_spec; reflexivity). congruence.
Qed.
Lemma str_eqb_refl : forall f, str_eqb f f = true. Proof. intros f. apply str_eqb_spec. reflexivity. Qed.
Lemma str_eqb_neq : forall f g, f <> g -> str_eqb f g = false. Proof. intros f g H. apply not_true_is_false. intros E. apply str_eqb_spec in E. exact (H E). Qed.
Lemma lookup_remove : forall f g d, lookup f (remove g d) = if str_eqb g f then None else lookup f d.
Proof.
  induction d as [|[h w] d IH]; [cbn; destruct (str_eqb g f); reflexivity|]. unfold remove in *. cbn [filter fst]. destruct (str_eqb g h) eqn:E; cbn [negb].
  - rewrite IH. destruct (str_eqb g f) eqn:F; [reflexivity|]. cbn. destruct (str_eqb f h) eqn:G; [|reflexivity]. apply str_eqb_spec in E, G. subst. rewrite str_eqb_refl in F. discriminate.
  - cbn. destruct (str_eqb f h) eqn:G; [|exact IH]. apply str_eqb_spec in G. subst. rewrite E. reflexivity.
Qed.
Lemma lookup_store : forall f g v d, lookup f (store g v d) = if str_eqb g f then Some v else lookup f d.
Proof.
  intros f g v d. unfold store. cbn [lookup]. rewrite lookup_remove. destruct (str_eqb g f) eqn:E.
  - apply str_eqb_spec in E. subst. rewrite str_eqb_refl. reflexivity.
  - destruct (str_eqb f g) eqn:F; [|reflexivity]. apply str_eqb_spec in F. subst. rewrite str_eqb_refl in E. discriminate.
Qed.

(* the directories the three operations can make *)
Inductive reached (alnum exists_version : N -> bool) : tagdir -> Prop :=
| re_nil : reached alnum exists_version []
| re_create : forall d tag v d', reached alnum exists_version d -> create alnum exists_version d tag v = Some d' -> reached alnum exists_version d'
| re_update : forall d tag v d', reached alnum exists_version d -> update alnum exists_version d tag v = Some d' -> reached alnum exists_version d'
| re_delete : forall d tag d', reached alnum exists_version d -> delete alnum d tag = Some d' -> reached alnum exists_version d'.
Definition tagged (alnum : N -> bool) (d : tagdir) : Prop := NoDup (map fst d) /\ forall f, In f (map fst d) -> exists tag, check_valid_ref alnum tag = true /\ f = file_of tag.
Lemma NoDup_remove : forall f d, NoDup (map fst d) -> NoDup (map fst (remove f d)) /\ ~ In f (map fst (remove f d)) /\ (forall g, In g (map fst (remove f d)) -> In g (map fst d)).
Proof.
  intros f d ND. assert (S : forall g, In g (map fst (remove f d)) -> In g (map fst d) /\ g <> f).
  { intros g I. apply in_map_iff in I. destruct I as [[h v] [<- I]]. apply filter_In in I. destruct I as [I E]. cbn in E |- *. split; [apply (in_map fst) in I; exact I|]. intros ->. rewrite str_eqb_refl in E. discriminate. }
  split; [|split; [intros I; exact (proj2 (S _ I) eq_refl)|intros g I; exact (proj1 (S _ I))]].
  clear S. unfold remove. induction d as [|[h w] d IH]; [constructor|]. cbn in ND. inversion ND; subst. cbn [filter fst]. destruct (negb (str_eqb f h)); [|apply IH; assumption]. cbn. constructor; [|apply IH; assumption].
  intros I. apply in_map_iff in I. destruct I as [[h' v] [E I]]. cbn in E. subst h'. apply filter_In in I. apply H1. apply in_map_iff. exists (h, v). split; [reflexivity|tauto].
Qed.
Lemma tagged_store : forall alnum d tag v, tagged alnum d -> check_valid_ref alnum tag = true -> tagged alnum (store (file_of tag) v d).
Proof.
  intros alnum d tag v [ND T] H. destruct (NoDup_remove (file_of tag) d ND) as (A & B & C). split; [constructor; assumption|]. intros f [<-|I]; [eauto|]. apply T, C, I.
Qed.
Lemma reached_tagged : forall alnum ev d, reached alnum ev d -> tagged alnum d.
Proof.
  intros alnum ev d R. induction R as [|d tag v d' R IH H|d tag v d' R IH H|d tag d' R IH H].
  - split; [constructor|intros f []].
  - unfold create in H. destruct (check_valid_ref alnum tag) eqn:V; [|discriminate]. destruct (lookup _ d); [discriminate|]. destruct (ev v); [|discriminate]. injection H as <-. apply tagged_store; assumption.
  - unfold update in H. destruct (check_valid_ref alnum tag) eqn:V; [|discriminate]. destruct (lookup _ d); [|discriminate]. destruct (ev v); [|discriminate]. injection H as <-. apply tagged_store; assumption.
  - unfold delete in H. destruct (check_valid_ref alnum tag) eqn:V; [|discriminate]. destruct (lookup _ d); [|discriminate]. injection H as <-. destruct IH as [ND T]. destruct (NoDup_remove (tag_file (bytes tag)) d ND) as (A & B & C). split; [exact A|]. intros f I. apply T, C, I.
Qed.
Lemma file_eqb : forall alnum a b, alnum_contract alnum -> check_valid_ref alnum a = true -> check_valid_ref alnum b = true -> str_eqb (file_of a) (file_of b) = str_eqb a b.
Proof.
  intros alnum a b C A B. destruct (str_eqb a b) eqn:E; [apply str_eqb_spec in E; subst; apply str_eqb_refl|]. apply str_eqb_neq. intros F. apply (distinct_tags_distinct_files alnum a b C A B) in F. subst. rewrite str_eqb_refl in E. discriminate.
Qed.
Lemma get_store : forall alnum d tag t v, alnum_contract alnum -> check_valid_ref alnum tag = true ->
  get_version alnum (store (file_of tag) v d) t = if str_eqb tag t then Some v else get_version alnum d t.
Proof.
  intros alnum d tag t v C V. unfold get_version. destruct (check_valid_ref alnum t) eqn:T.
  - fold (file_of t). rewrite lookup_store, (file_eqb alnum tag t C V T). reflexivity.
  - destruct (str_eqb tag t) eqn:E; [apply str_eqb_spec in E; subst; congruence|reflexivity].
Qed.
(* creation: succeeds exactly for a valid, unused name and an existing version, and changes that tag only *)
Theorem create_exact : forall alnum ev d tag v, alnum_contract alnum ->
  match create alnum ev d tag v with
  | Some d' => check_valid_ref alnum tag = true /\ get_version alnum d tag = None /\ ev v = true /\ forall t, get_version alnum d' t = if str_eqb tag t then Some v else get_version alnum d t
  | None => check_valid_ref alnum tag = false \/ get_version alnum d tag <> None \/ ev v = false
  end.
Proof.
  intros alnum ev d tag v C. unfold create. change (get_version alnum d tag) with (if check_valid_ref alnum tag then lookup (tag_file (bytes tag)) d else None). destruct (check_valid_ref alnum tag) eqn:V; [|left; reflexivity]. destruct (lookup (tag_file (bytes tag)) d) eqn:L; [right; left; discriminate|]. destruct (ev v); [|right; right; reflexivity].
  repeat split. intros t. apply (get_store alnum d tag t v C V).
Qed.
Theorem update_exact : forall alnum ev d tag v, alnum_contract alnum ->
  match update alnum ev d tag v with
  | Some d' => check_valid_ref alnum tag = true /\ get_version alnum d tag <> None /\ ev v = true /\ forall t, get_version alnum d' t = if str_eqb tag t then Some v else get_version alnum d t
  | None => get_version alnum d tag = None \/ ev v = false
  end.
Proof.
  intros alnum ev d tag v C. unfold update. change (get_version alnum d tag) with (if check_valid_ref alnum tag then lookup (tag_file (bytes tag)) d else None). destruct (check_valid_ref alnum tag) eqn:V; [|left; reflexivity]. destruct (lookup (tag_file (bytes tag)) d) eqn:L; [|left; reflexivity]. destruct (ev v); [|right; reflexivity].
  repeat split; [discriminate|]. intros t. apply (get_store alnum d tag t v C V).
Qed.
Theorem delete_exact : forall alnum d tag, alnum_contract alnum ->
  match delete alnum d tag with
  | Some d' => get_version alnum d tag <> None /\ forall t, get_version alnum d' t = if str_eqb tag t then None else get_version alnum d t
  | None => get_version alnum d tag = None
  end.
Proof.
  intros alnum d tag C. unfold delete. change (get_version alnum d tag) with (if check_valid_ref alnum tag then lookup (tag_file (bytes tag)) d else None). destruct (check_valid_ref alnum tag) eqn:V; [|reflexivity]. destruct (lookup (tag_file (bytes tag)) d) eqn:L; [|reflexivity].
  split; [discriminate|]. intros t. unfold get_version. destruct (check_valid_ref alnum t) eqn:T; [|destruct (str_eqb tag t); reflexivity]. rewrite lookup_remove. fold (file_of tag). fold (file_of t). rewrite (file_eqb alnum tag t C V T). reflexivity.
Qed.

(** * Listing *)
Lemma strip_app : forall x, strip_json (x ++ lit ".json") = Some x.
Proof.
  intros x. unfold strip_json. rewrite ends_with_app, app_length. change (List.length (lit ".json")) with 5%nat. replace (List.length x + 5 - 5)%nat with (List.length x) by lia. rewrite firstn_app, firstn_all, Nat.sub_diag. cbn [firstn]. rewrite app_nil_r. reflexivity.
Qed.
Lemma get_In_dir : forall alnum d tag v, tagged alnum d -> check_valid_ref alnum tag = true -> (get_version alnum d tag = Some v <-> In (file_of tag, v) d).
Proof.
  intros alnum d tag v [ND _] V. unfold get_version. rewrite V. fold (file_of tag). split; [apply lookup_In|]. clear V. generalize (file_of tag). intros f I. induction d as [|[g w] d IH]; [destruct I|]. cbn in ND. inversion ND; subst. cbn. destruct I as [[= -> ->]|I]; [rewrite str_eqb_refl; reflexivity|].
  rewrite str_eqb_neq; [apply IH; assumption|]. intros ->. apply H1. apply (in_map fst) in I. exact I.
Qed.
Theorem listing_exact : forall alnum ev d, alnum_contract alnum -> reached alnum ev d -> (forall tag, get_version alnum d tag <> None -> is_ascii tag) ->
  exists l, list_tags d d = Some l /\ NoDup (map fst l) /\ forall tag v, In (tag, v) l <-> get_version alnum d tag = Some v.
Proof.
  intros alnum ev d C R A. pose proof (reached_tagged alnum ev d R) as T.
  assert (F : forall f v, In (f, v) d -> exists tag, check_valid_ref alnum tag = true /\ is_ascii tag /\ f = tag ++ lit ".json" /\ file_of tag = f /\ get_version alnum d tag = Some v).
  { intros f v I. destruct (proj2 T f (in_map fst _ _ I)) as (tag & V & ->). assert (G : get_version alnum d tag = Some v) by (apply get_In_dir; assumption). exists tag. assert (AS : is_ascii tag) by (apply A; congruence).
    split; [exact V|]. split; [exact AS|]. split; [apply (ascii_file_name alnum); assumption|]. split; [reflexivity|exact G]. }
  assert (G : forall d', (forall f v, In (f, v) d' -> In (f, v) d) -> NoDup (map fst d') ->
    exists l, list_tags d d' = Some l /\ NoDup (map fst l) /\ forall tag v, In (tag, v) l <-> In (tag ++ lit ".json", v) d').
  { induction d' as [|[f v] d' IH]; intros S ND; [exists []; repeat split; try constructor; intros []|]. cbn in ND. inversion ND; subst. destruct IH as (l & L1 & L2 & L3); [intros g w I; apply S; right; exact I|assumption|].
    destruct (F f v (S f v (or_introl eq_refl))) as (tag & V & AS & E1 & E2 & GV). exists ((tag, v) :: l). cbn [list_tags]. rewrite E1, strip_app.
    assert (X : lookup (tag_file tag) d = Some v). { unfold get_version in GV. rewrite V in GV. rewrite bytes_ascii in GV by exact AS. exact GV. }
    rewrite X, L1. split; [reflexivity|]. split.
    - cbn. constructor; [|exact L2]. intros I. apply in_map_iff in I. destruct I as [[t w] [E I]]. cbn in E. subst t. apply L3 in I. apply H1. rewrite E1. apply (in_map fst) in I. exact I.
    - intros t w. cbn [In]. rewrite L3. split; intros [Q|I]; try (right; exact I); left.
      + injection Q as -> ->. reflexivity.
      + injection Q as Q ->. apply app_inv_tail in Q. subst. reflexivity. }
  destruct (G d ltac:(auto) (proj1 T)) as (l & L1 & L2 & L3). exists l. split; [exact L1|]. split; [exact L2|]. intros tag v. rewrite L3. split.
  - intros I. destruct (F _ _ I) as (t & V & AS & E1 & E2 & GV). apply app_inv_tail in E1. subst t. exact GV.
  - intros GV. assert (V : check_valid_ref alnum tag = true) by (unfold get_version in GV; destruct (check_valid_ref alnum tag); [reflexivity|discriminate]). pose proof GV as GV'. apply get_In_dir in GV; [|exact T|exact V].
    rewrite <- (ascii_file_name alnum) by (try assumption; apply A; congruence). exact GV.
Qed.
Lemma list_fails : forall all d f v name, In (f, v) d -> strip_json f = Some name -> lookup (tag_file name) all = None -> list_tags all d = None.
Proof.
  induction d as [|[g w] d IH]; intros f v name I S L; [destruct I|]. cbn [list_tags]. destruct I as [[= -> ->]|I].
  - rewrite S, L. reflexivity.
  - rewrite (IH f v name I S L). destruct (strip_json g) as [x|]; [|reflexivity]. destruct (lookup (tag_file x) all); reflexivity.
Qed.
Lemma hex_small : forall d, d < 16 -> hex d < 256.
Proof. intros d H. unfold hex. destruct (d <? 10); lia. Qed.
Lemma encode_small : forall b, b < 256 -> Forall (fun x => x < 256) (encode_byte b).
Proof.
  intros b H. unfold encode_byte. destruct ((b <? 32) || (127 <=? b) || memN b special); [|repeat constructor; exact H].
  repeat constructor; [apply hex_small, N.div_lt_upper_bound; lia|apply hex_small, N.mod_lt; discriminate].
Qed.
Lemma utf8_percent : forall c, In 37 (utf8 c) -> c = 37.
Proof.
  intros c. unfold utf8. destruct (utf8_digits c) as (q0 & q1 & q2 & r0 & r1 & r2 & E0 & E1 & E2 & E3 & E4 & E5 & A & B & C & R0 & R1 & R2). rewrite ?E0, ?E1, ?E2, ?E3, ?E4, ?E5.
  generalize (q0 mod 64) (q1 mod 64). intros x y.
  destruct (N.ltb_spec c 128); [cbn [In]; lia|]. destruct (N.ltb_spec c 2048); [cbn [In]; lia|]. destruct (N.ltb_spec c 65536); cbn [In]; lia.
Qed.
(* one accepted tag with a character outside ASCII makes every listing fail *)
Theorem non_ascii_tag_breaks_listing : forall alnum ev d tag, alnum_contract alnum -> reached alnum ev d -> get_version alnum d tag <> None -> ~ is_ascii tag -> list_tags d d = None.
Proof.
  intros alnum ev d tag C R G NA. pose proof (reached_tagged alnum ev d R) as T. destruct (get_version alnum d tag) as [v|] eqn:GV; [clear G|contradiction].
  assert (V : check_valid_ref alnum tag = true) by (unfold get_version in GV; destruct (check_valid_ref alnum tag); [reflexivity|discriminate]).
  apply get_In_dir in GV; [|exact T|exact V]. pose proof (accepted_chars alnum tag C V) as FC.
  apply (list_fails d d (file_of tag) v (flat_map encode_byte (bytes tag)) GV); [unfold file_of; rewrite tag_file_enc; apply strip_app|].
  destruct (lookup _ d) as [w|] eqn:L; [exfalso|reflexivity]. apply lookup_In in L. destruct (proj2 T _ (in_map fst _ _ L)) as (t & VT & E). cbn [fst] in E. unfold file_of in E. pose proof (accepted_chars alnum t C VT) as FT.
  apply tag_file_injective in E; [|apply Forall_flat_map; eapply Forall_impl; [|apply bytes_small; exact FC]; exact encode_small|apply bytes_small; exact FT].
  assert (P : In 37 (bytes t)).
  { rewrite <- E. assert (X : exists c, In c tag /\ 128 <= c).
    { clear - NA. induction tag as [|c s IH]; [exfalso; apply NA; constructor|]. destruct (N.ltb_spec c 128) as [H|H]; [|exists c; split; [left; reflexivity|exact H]]. destruct IH as (x & I & X); [intros F; apply NA; constructor; assumption|]. exists x. split; [right; exact I|exact X]. }
    destruct X as (c & IC & HC). apply in_flat_map. assert (Y : exists b, In b (utf8 c) /\ 192 <= b).
    { unfold utf8. destruct (N.ltb_spec c 128); [lia|]. destruct (N.ltb_spec c 2048); [eexists; split; [left; reflexivity|lia]|]. destruct (N.ltb_spec c 65536); eexists; (split; [left; reflexivity|lia]). }
    destruct Y as (b & IB & HB). exists b. split; [apply in_flat_map; exists c; split; assumption|]. unfold encode_byte. replace (127 <=? b) with true by (symmetry; apply N.leb_le; lia). rewrite orb_true_r. left. reflexivity. }
  apply in_flat_map in P. destruct P as (c & IC & P). apply utf8_percent in P. subst c. unfold check_valid_ref in VT. rewrite !andb_true_iff in VT. destruct VT as [[[[[_ F] _] _] _] _]. rewrite forallb_forall in F. specialize (F 37 IC). unfold tag_char in F. rewrite (proj1 C 37) in F by lia. discriminate F.
Qed.
(* an alphanumeric test meeting the contract: ASCII and e-acute *)
Definition toy_alnum (c : N) : bool := (48 <=? c) && (c <=? 57) || (65 <=? c) && (c <=? 90) || (97 <=? c) && (c <=? 122) || (c =? 233).
Lemma toy_contract : alnum_contract toy_alnum.
Proof. unfold toy_alnum. split; intros c H; [replace (c =? 233) with false by (symmetry; apply N.eqb_neq; lia); apply orb_false_r|lia]. Qed.
Theorem created_tag_listed_refuted : exists alnum ev d, alnum_contract alnum /\ create alnum ev [] [233] 1 = Some d /\ get_version alnum d [233] = Some 1 /\ list_tags d d = None.
Proof. exists toy_alnum, (fun _ => true). eexists. split; [exact toy_contract|]. split; [reflexivity|]. split; reflexivity. Qed.
Example listing_case : exists d, reached toy_alnum (fun v => v <=? 3) d /\ list_tags d d = Some [(lit "prod", 2); (lit "v1.0", 1)] /\ (forall tag, get_version toy_alnum d tag <> None -> is_ascii tag).
Proof.
  exists [(lit "prod.json", 2); (lit "v1.0.json", 1)]. split.
  - apply (re_update _ _ [(lit "prod.json", 1); (lit "v1.0.json", 1)] (lit "prod") 2); [|vm_compute; reflexivity]. apply (re_create _ _ [(lit "v1.0.json", 1)] (lit "prod") 1); [|vm_compute; reflexivity]. apply (re_create _ _ [] (lit "v1.0") 1); [constructor|vm_compute; reflexivity].
  - split; [vm_compute; reflexivity|]. intros tag G. destruct (get_version toy_alnum _ tag) as [v|] eqn:E; [|contradiction]. unfold get_version in E. destruct (check_valid_ref toy_alnum tag) eqn:V; [|discriminate]. apply lookup_In in E.
    pose proof toy_contract as C. assert (X : file_of tag = file_of (lit "prod") \/ file_of tag = file_of (lit "v1.0")) by (destruct E as [E|[E|[]]]; injection E as E _; [left|right]; unfold file_of; rewrite <- E; vm_compute; reflexivity).
    destruct X as [X|X]; apply (distinct_tags_distinct_files toy_alnum) in X; try exact C; try exact V; try (vm_compute; reflexivity); subst tag; repeat constructor.
Qed.

(** * Concurrent creation *)
Definition started (s : tst) : Prop := tg_tag s = None /\ forall i, exists v, tg_pc s i = TStart v \/ tg_pc s i = TErr.
Theorem exclusive_creation_refuted : exists s t, started s /\ truns s t /\ tg_pc t 0 = TOk 1 /\ tg_pc t 1 = TOk 2 /\ tg_tag t = Some 2.
Proof.
  pose (pc0 := fun i => if i =? 0 then TStart 1 else TStart 2). exists {| tg_tag := None; tg_pc := pc0 |}.
  exists {| tg_tag := Some 2; tg_pc := tset (tset (tset (tset pc0 0 (TPut 1)) 1 (TPut 2)) 0 (TOk 1)) 1 (TOk 2) |}.
  split; [split; [reflexivity|intros i; cbn; unfold pc0; destruct (i =? 0); eauto]|]. split; [|repeat split].
  eapply tr_step; [eapply tr_step; [eapply tr_step; [eapply tr_step; [apply tr_refl|]|]|]|].
  - apply (ts_free pc0 0 1). reflexivity.
  - apply (ts_free _ 1 2). reflexivity.
  - apply (ts_put None _ 0 1). reflexivity.
  - apply (ts_put (Some 1) _ 1 2). reflexivity.
Qed.
(* the tag's version is always one some creator was told it stored; once present it stays *)
Definition creation_inv (s : tst) : Prop := (forall v, tg_tag s = Some v -> exists i, tg_pc s i = TOk v) /\ (tg_tag s = None -> forall i v, tg_pc s i <> TOk v).
Lemma started_inv : forall s, started s -> creation_inv s.
Proof. intros s [T P]. split; [intros v E; congruence|intros _ i v E; destruct (P i) as [w [X|X]]; congruence]. Qed.
Lemma tset_same : forall pc i p, tset pc i p i = p. Proof. intros. unfold tset. rewrite N.eqb_refl. reflexivity. Qed.
Lemma tset_other : forall pc i j p, j <> i -> tset pc i p j = pc j. Proof. intros. unfold tset. apply N.eqb_neq in H. rewrite H. reflexivity. Qed.
Lemma step_inv : forall s t, tstep s t -> creation_inv s -> creation_inv t.
Proof.
  intros s t H [A B]. destruct H as [tag pc i v w P T|pc i v P|tag pc i v P|tag pc i v P]; cbn in *.
  - split; cbn; [|intros X; subst; discriminate]. intros x E. destruct (A x E) as [j J]. exists j. rewrite tset_other; [exact J|]. intros ->. congruence.
  - split; cbn; [discriminate|]. intros _ j x. destruct (N.eq_dec j i) as [->|NE]; [rewrite tset_same; discriminate|rewrite tset_other by exact NE; apply B; reflexivity].
  - split; cbn; [|discriminate]. intros x E. injection E as <-. exists i. apply tset_same.
  - split; cbn.
    + intros x E. destruct (A x E) as [j J]. exists j. rewrite tset_other; [exact J|]. intros ->. destruct P; congruence.
    + intros E j x. destruct (N.eq_dec j i) as [->|NE]; [rewrite tset_same; discriminate|rewrite tset_other by exact NE; apply B; exact E].
Qed.
Theorem stored_by_a_creator : forall s t, started s -> truns s t -> (forall v, tg_tag t = Some v -> exists i, tg_pc t i = TOk v) /\ (forall i v, tg_pc t i = TOk v -> tg_tag t <> None).
Proof.
  intros s t S R. assert (I : creation_inv t) by (induction R as [s|s t u R IH H]; [apply started_inv; exact S|exact (step_inv t u H (IH S))]). destruct I as [A B]. split; [exact A|]. intros i v E T. exact (B T i v E).
Qed.
(* creators whose check and write are not interleaved with another's *)
Inductive sruns : tst -> tst -> Prop :=
| sr_refl : forall s, sruns s s
| sr_step : forall s t u, sruns s t -> tstep t u -> (forall i j v w, tg_pc u i = TPut v -> tg_pc u j = TPut w -> i = j) -> sruns s u.
Definition serial_inv (s : tst) : Prop :=
  (forall i j v w, tg_pc s i = TOk v -> tg_pc s j = TOk w -> i = j) /\ (forall i j v w, tg_pc s i = TOk v -> tg_pc s j = TPut w -> False) /\
  (forall i j v w, tg_pc s i = TPut v -> tg_pc s j = TPut w -> i = j) /\ (tg_tag s <> None -> exists i v, tg_pc s i = TOk v) /\ (tg_tag s = None -> forall i v, tg_pc s i <> TOk v).
Theorem serial_creation_exclusive : forall s t, started s -> sruns s t -> forall i j v w, tg_pc t i = TOk v -> tg_pc t j = TOk w -> i = j /\ v = w /\ tg_tag t = Some v.
Proof.
  intros s t S R. assert (X : serial_inv t /\ truns s t).
  { induction R as [s|s t u R IH H SER].
    - split; [|constructor]. destruct S as [T P]. unfold serial_inv. repeat apply conj; try (intros i j v w A B; destruct (P i) as [x [X|X]]; congruence); [intros X; contradiction|]. intros _ i v E. destruct (P i) as [w [X|X]]; congruence.
    - destruct (IH S) as [I TR]. split; [|eapply tr_step; eassumption]. destruct I as (OO & OP & PP & TS & TN). unfold serial_inv.
      assert (STR : truns s u) by (eapply tr_step; eassumption). destruct (stored_by_a_creator s u S STR) as [Q1 Q2].
      repeat apply conj; [| |exact SER| |].
      + destruct H as [tag pc i0 v0 w0 P T|pc i0 v0 P|tag pc i0 v0 P|tag pc i0 v0 P]; cbn in *; intros i j v w.
        * destruct (N.eq_dec i i0) as [->|NI]; [rewrite tset_same; discriminate|]. destruct (N.eq_dec j i0) as [->|NJ]; [rewrite tset_same; discriminate|]. rewrite !tset_other by assumption. apply OO.
        * destruct (N.eq_dec i i0) as [->|NI]; [rewrite tset_same; discriminate|]. destruct (N.eq_dec j i0) as [->|NJ]; [rewrite tset_same; discriminate|]. rewrite !tset_other by assumption. apply OO.
        * destruct (N.eq_dec i i0) as [->|NI], (N.eq_dec j i0) as [->|NJ]; [reflexivity| | |]; rewrite ?tset_same, ?tset_other by assumption; intros A B.
          -- exfalso. eapply OP; eassumption.
          -- exfalso. eapply OP; eassumption.
          -- eapply OO; eassumption.
        * destruct (N.eq_dec i i0) as [->|NI]; [rewrite tset_same; discriminate|]. destruct (N.eq_dec j i0) as [->|NJ]; [rewrite tset_same; discriminate|]. rewrite !tset_other by assumption. apply OO.
      + destruct H as [tag pc i0 v0 w0 P T|pc i0 v0 P|tag pc i0 v0 P|tag pc i0 v0 P]; cbn in *; intros i j v w.
        * destruct (N.eq_dec i i0) as [->|NI]; [rewrite tset_same; discriminate|]. destruct (N.eq_dec j i0) as [->|NJ]; [rewrite tset_same; discriminate|]. rewrite !tset_other by assumption. apply OP.
        * intros A _. destruct (N.eq_dec i i0) as [->|NI]; [rewrite tset_same in A; discriminate|]. rewrite tset_other in A by assumption. exact (TN eq_refl i v A).
        * intros A B. destruct (N.eq_dec j i0) as [->|NJ]; [rewrite tset_same in B; discriminate|]. rewrite tset_other in B by assumption. apply NJ. eapply PP; eassumption.
        * destruct (N.eq_dec i i0) as [->|NI]; [rewrite tset_same; discriminate|]. destruct (N.eq_dec j i0) as [->|NJ]; [rewrite tset_same; discriminate|]. rewrite !tset_other by assumption. apply OP.
      + intros T. destruct (tg_tag u) as [v|] eqn:E; [|contradiction]. destruct (Q1 v eq_refl) as [i I]. eauto.
      + intros T i v E. exact (Q2 i v E T). }
  destruct X as [(OO & _ & _ & TS & TN) TR]. intros i j v w A B. assert (E : i = j) by (eapply OO; eassumption). subst j. split; [reflexivity|]. split; [congruence|].
  destruct (stored_by_a_creator s t S TR) as [Q1 Q2]. destruct (tg_tag t) as [x|] eqn:T; [|exfalso; exact (Q2 i v A eq_refl)]. destruct (Q1 x eq_refl) as [k K]. assert (k = i) by (eapply OO; eassumption). subst k. congruence.
Qed.
Example serial_case : exists s t, started s /\ sruns s t /\ tg_pc t 0 = TOk 1 /\ tg_pc t 1 = TErr.
Proof.
  pose (pc0 := fun i => if i =? 0 then TStart 1 else TStart 2). exists {| tg_tag := None; tg_pc := pc0 |}.
  exists {| tg_tag := Some 1; tg_pc := tset (tset (tset pc0 0 (TPut 1)) 0 (TOk 1)) 1 TErr |}.
  split; [split; [reflexivity|intros i; cbn; unfold pc0; destruct (i =? 0); eauto]|]. split; [|repeat split].
  assert (Z : forall pc i v, (forall j w, pc j <> TPut w) -> forall x y a b, tset pc i v x = TPut a -> tset pc i v y = TPut b -> x = y).
  { intros pc i v N x y a b A B. destruct (N.eq_dec x i) as [->|NX]; [|rewrite tset_other in A by assumption; exfalso; exact (N x a A)]. destruct (N.eq_dec y i) as [->|NY]; [reflexivity|rewrite tset_other in B by assumption; exfalso; exact (N y b B)]. }
  assert (P0 : forall j w, pc0 j <> TPut w) by (intros j w; unfold pc0; destruct (j =? 0); discriminate).
  eapply sr_step; [eapply sr_step; [eapply sr_step; [apply sr_refl| |]| |]| |].
  - apply (ts_free pc0 0 1). reflexivity.
  - cbn. apply Z. exact P0.
  - apply (ts_put None _ 0 1). reflexivity.
  - cbn. intros x y a b A B. exfalso. unfold tset, pc0 in A. destruct (x =? 0); discriminate.
  - apply (ts_exists (Some 1) _ 1 2 1); reflexivity.
  - cbn. intros x y a b A B. exfalso. unfold tset, pc0 in A. destruct (x =? 1), (x =? 0); discriminate.
Qed.
