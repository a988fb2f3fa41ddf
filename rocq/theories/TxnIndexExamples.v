(* C44: concrete histories. *)
From Coq Require Import List Arith NArith ZArith Bool Lia Permutation.
From Coq Require Import ZifyBool ZifyN ZifyNat.
From Verif Require Import Lib AMap TreeMapModel SerdeModel TxnModel TxnSpec TxnLemmas TxnIdsProofs TxnFrame TxnExamples TxnIndexSpec TxnIndexProofs.
Import ListNotations.
Local Open Scope N_scope.

(* files 10, 11, ... hold distinct values; file 12 holds rows 1..4 of file 10, then those of file 11 *)
Definition contents (path off : N) : N := if path =? 12 then if off <? 4 then 1001 + off else 1096 + off else 100 * path + off.
Definition ex_entry (u : N) (a : ref) (v : list (option (N * nat))) : Prop :=
  match u with
  | 100 => exists off, a = RAddr 0 off /\ v = [Some (contents 10 off, 0%nat)]
  | 101 => exists i off, i <= 1 /\ a = RAddr i off /\ v = [Some (contents (10 + i) off, 0%nat)]
  | 102 => exists off, a = RAddr 2 off /\ v = [Some (contents 12 off, 0%nat)]
  | _ => False
  end.
(* a deletion file deletes row 0 *)
Definition ex_world : world :=
  {| w_val := list (option (N * nat)); w_value := fun l off => map (option_map (fun p => (contents (pl_path p) off, pl_pos p))) l;
     w_gone := fun _ _ off => off = 0; w_entry := ex_entry |}.
Definition ix (u : N) (b : list N) : index := {| ix_uuid := u; ix_name := 1; ix_fields := [0%Z]; ix_version := 1; ix_bitmap := Some b |}.

Lemma contents_head : forall off, off < 4 -> contents 12 off = contents 10 (off + 1).
Proof. intros off H. unfold contents. replace (12 =? 12) with true by reflexivity. replace (10 =? 12) with false by reflexivity. destruct (off <? 4) eqn:E; lia. Qed.
Lemma contents_tail : forall off, 4 <= off -> contents 12 off = contents 11 (off - 4).
Proof. intros off H. unfold contents. replace (12 =? 12) with true by reflexivity. replace (11 =? 12) with false by reflexivity. destruct (off <? 4) eqn:E; lia. Qed.

(* append, index, delete, compaction with the index remapped *)
Definition covered_h := [(created, dflt); (tx 1 2 (Append [frag 0 11 5 [0%Z; 1%Z]]), dflt); (tx 2 3 (CreateIndex [ix 101 [0; 1]] []), dflt);
  (tx 3 4 (Delete [with_del (frag 0 10 5 [0%Z; 1%Z]) 7] []), dflt); (tx 4 5 (ReserveFragments 2), dflt);
  (tx 5 6 (Rewrite [{| rg_old := [with_del (frag 0 10 5 [0%Z; 1%Z]) 7; frag 1 11 5 [0%Z; 1%Z]]; rg_new := [frag 2 12 9 [0%Z; 1%Z]] |}] [{| rw_old := 101; rw_new := 102 |}]), dflt);
  (tx 5 7 (Append [frag 0 13 4 [0%Z; 1%Z]]), dflt)].
Definition ex_mv (a : ref) : option ref :=
  match a with
  | RAddr i off => if i =? 0 then if (1 <=? off) && (off <? 5) then Some (RAddr 2 (off - 1)) else None
                   else if i =? 1 then if off <? 5 then Some (RAddr 2 (4 + off)) else None else Some a
  | RId _ => Some a
  end.
Lemma sources_same : forall zs n o p q, f_files n = [file p [0%Z; 1%Z]] -> f_files o = [file q [0%Z; 1%Z]] -> forall off off', contents p off = contents q off' ->
  w_value ex_world (sources zs n) off = w_value ex_world (sources zs o) off'.
Proof.
  intros zs n o p q Hn Ho off off' E. cbn [w_value ex_world]. unfold sources. rewrite !map_map. apply map_ext. intros z. unfold source. rewrite Hn, Ho. cbn [find file df_fields].
  destruct (existsb (Z.eqb z) [0%Z; 1%Z]); auto. cbn. now rewrite E.
Qed.
Lemma covered_honest : all_entries (writer_honest ex_world) (hist covered_h).
Proof.
  apply every_entries. vm_compute hist. cbn [every app]. unfold writer_honest at 1 2 3 4 5 6 7; cbn [e_txn t_op t_read].
  split; [exact I|]. split; [exact I|]. split; [|split; [|split; [exact I|split; [|split; exact I]]]].
  - split; [repeat constructor; intros []|]. split.
    + intros i [<-|[]] e x He Hx. cbn [In] in He. destruct He as [<-|[<-|[]]]; destruct Hx.
    + eexists. split; [reflexivity|]. intros x [<-|[]]. split; [intros z Hz; cbn in *; tauto|]. cbn [ix_bitmap ix_uuid ix_fields e_man m_fragments frag_ids].
      intros b i Hb Hi. injection Hb as <-. split; [left; exact Hi|].
      intros f [<-|[<-|[]]] _ off [[n [N1 N2]] _]; eexists; (split; [reflexivity|]); cbn; [exists 0, off|exists 1, off]; split; auto; lia.
  - constructor; [|constructor]. do 2 eexists. split; [reflexivity|]. split; [left; reflexivity|]. split; [|reflexivity].
    repeat split; auto. intros off [].
  - eexists. split; [reflexivity|]. split; [|split].
    + intros g o [<-|[]] Ho. cbn in *. tauto.
    + intros g n [<-|[]] [<-|[]]. discriminate.
    + eexists. split; [reflexivity|]. right. split; [reflexivity|]. split; [repeat constructor; intros []|]. split; [|split; [|split]].
      * intros r [<-|[]] e x He Hx. cbn [In] in He. repeat (destruct He as [<-|He]); try destruct He; cbn in Hx; repeat (destruct Hx as [<-|Hx]); try destruct Hx; discriminate.
      * intros r [<-|[]]. eexists. split; [left; reflexivity|reflexivity].
      * intros x b i [<-|[]] C. exfalso. apply C. now left.
      * exists ex_mv. cbn [rg_old map flat_map app f_id]. split; [|split; [reflexivity|split]].
        -- intros i off Hi. unfold ex_mv. cbn [In] in Hi. destruct (i =? 0) eqn:E0; [exfalso; apply Hi; left; cbn; lia|]. destruct (i =? 1) eqn:E1; auto.
           exfalso; apply Hi; right; left; cbn; lia.
        -- intros r a a' v [<-|[]] H Hm. cbn in H. destruct H as [i [off [Hi [-> ->]]]]. assert (i = 0 \/ i = 1) as [->| ->] by lia; cbn in Hm.
           ++ destruct off as [|p]; [discriminate|]. destruct ((1 <=? N.pos p) && (N.pos p <? 5)) eqn:E; [|discriminate].
              injection Hm as <-. exists (N.pos p - 1). split; auto. rewrite (contents_head (N.pos p - 1)) by lia. do 4 f_equal. lia.
           ++ destruct (off <? 5) eqn:E; [|discriminate]. injection Hm as <-. exists (4 + off). split; [reflexivity|]. rewrite (contents_tail (4 + off)) by lia. change (10 + 1) with 11. do 4 f_equal. lia.
        -- intros g [<-|[]] n off [<-|[]] [[k [K1 K2]] _]. cbn in K1. injection K1 as <-.
           destruct (off <? 4) eqn:E.
           ++ eexists. exists (off + 1), (RAddr 0 (off + 1)), (RAddr 2 off). split; [left; reflexivity|]. split; [split; [eexists; split; [reflexivity|lia]|cbn; lia]|].
              split; [reflexivity|]. split; [reflexivity|]. split.
              ** unfold ex_mv. cbn [N.eqb]. replace ((1 <=? off + 1) && (off + 1 <? 5)) with true by lia. do 2 f_equal. lia.
              ** intros zs _. eapply sources_same; [reflexivity|reflexivity|]. apply contents_head. lia.
           ++ eexists. exists (off - 4), (RAddr 1 (off - 4)), (RAddr 2 off). split; [right; left; reflexivity|]. split; [split; [eexists; split; [reflexivity|lia]|cbn; tauto]|].
              split; [reflexivity|]. split; [reflexivity|]. split.
              ** unfold ex_mv. replace (1 =? 0) with false by reflexivity. replace (1 =? 1) with true by reflexivity. replace (off - 4 <? 5) with true by lia. do 2 f_equal. lia.
              ** intros zs _. eapply sources_same; [reflexivity|reflexivity|]. apply contents_tail. lia.
Qed.

Lemma covered_checked : all_entries enough_checked (hist covered_h).
Proof.
  apply every_entries. vm_compute hist. cbn [every app]. unfold enough_checked at 1 2 3 4 5 6 7; cbn [e_txn t_op t_read].
  split; [exact I|]. split; [exact I|]. split; [|split; [exact I|split; [exact I|split; [exact I|split; exact I]]]]. split.
  - intros v e Hv He [H1 H2]. unfold version_entry in He. assert (Hn : (N.to_nat v = 2 \/ 3 <= N.to_nat v)%nat) by lia.
    destruct Hn as [Hn|Hn].
    + assert (v = 2) by lia. subst v. cbn in He. injection He as <-. discriminate.
    + destruct (v =? 0); [discriminate|]. assert (N.to_nat v - 1 < 2)%nat; [|lia]. change 2%nat with (length [e; e]).
      match type of He with nth_error ?l _ = _ => change (length [e; e]) with (length l) end. apply nth_error_Some. congruence.
  - intros m0 m x z H0 H1 [<-|[]] [<-|[]]. cbn in H0, H1. injection H0 as <-. injection H1 as <-. split; [cbn; auto|].
    intros f0 f [<-|[<-|[]]] [<-|[<-|[]]]; cbn; auto; discriminate.
Qed.
Lemma covered_example : good (hist covered_h) /\ all_entries (writer_honest ex_world) (hist covered_h) /\ all_entries enough_checked (hist covered_h) /\
  length (hist covered_h) = 7%nat /\ map (fun e => map ix_uuid (e_idx e)) (hist covered_h) = [[]; []; [101]; [101]; [101]; [102]; [102]] /\
  map (fun e => map ix_bitmap (e_idx e)) (skipn 4 (hist covered_h)) = [[Some [0; 1]]; [Some [2]]; [Some [2]]] /\ map (fun e => frag_ids (e_man e)) (skipn 4 (hist covered_h)) = [[0; 1]; [2]; [2; 4]].
Proof. split; [good_ok|]. split; [exact covered_honest|]. split; [exact covered_checked|]. vm_compute. auto. Qed.
(* and the conclusion is about something: the last version has 9 indexed rows *)
Lemma covered_claims : claims_true ex_world (nth_entry 6 covered_h) /\ exists x b f, In x (e_idx (nth_entry 6 covered_h)) /\ ix_bitmap x = Some b /\ In f (m_fragments (e_man (nth_entry 6 covered_h))) /\
  In (f_id f) b /\ live ex_world f 8.
Proof.
  split.
  - apply (claims_hold ex_world (hist covered_h)); [good_ok|exact covered_honest|exact covered_checked|]. vm_compute. do 6 right. left. reflexivity.
  - vm_compute nth_entry. do 3 eexists. split; [left; reflexivity|]. split; [reflexivity|]. split; [left; reflexivity|]. split; [left; reflexivity|].
    split; [eexists; split; [reflexivity|reflexivity]|intros []].
Qed.

(* ---- the writers are honest, every commit is accepted, and an index claims a row it does not have ---- *)
Definition broken_by (P : list entry -> txn -> Prop) : Prop :=
  exists w h e, good (h ++ [e]) /\ all_entries (writer_honest w) (h ++ [e]) /\ P h (e_txn e) /\ (forall x, In x h -> claims_true w x) /\ ~ claims_true w e.
Definition rewritten_in_place (z : Z) (f u : fragment) : Prop := f_id u = f_id f /\ f_rows u = f_rows f /\ source z u <> source z f.
Definition f0 := frag 0 10 5 [0%Z; 1%Z].
(* what merge_insert's update_fragments does to a fragment (write/merge_insert.rs:666-1000): the
   column's old field becomes -2, a new file is added *)
Definition f0' : fragment := {| f_id := 0; f_files := [file 10 [(-2)%Z; 1%Z]; file 11 [0%Z]]; f_del := None; f_rowids := None; f_rows := Some 5 |}.
Definition indexing (read uuid : N) := tx read uuid (CreateIndex [ix 100 [0]] []).

Lemma index_built : forall h (r u : N) e0 f, version_entry h r = Some e0 -> m_fragments (e_man e0) = [f] -> f_id f = 0 -> source 0%Z f = Some {| pl_path := 10; pl_pos := 0; pl_col := Some 0%Z |} -> f_rowids f = None ->
  In 0%Z (field_ids (m_schema (e_man e0))) -> fresh_uuid h 100 -> writer_honest ex_world h (indexing r u).
Proof.
  intros h r u e0 f He Hf Hi Hs Hr Hz Hu. unfold writer_honest, indexing, tx. cbn [t_op t_read]. split; [repeat constructor; intros []|]. split; [now intros x [<-|[]]|].
  exists e0. split; auto. intros x [<-|[]]. split; [intros z [<-|[]]; auto|]. intros b i Hb Hb'. injection Hb as <-. destruct Hb' as [<-|[]]. split.
  - left. unfold frag_ids. rewrite Hf. now left.
  - intros g Hg _. rewrite Hf in Hg. destruct Hg as [<-|[]]. intros off _. unfold row_ref. rewrite Hr, Hi. eexists. split; [reflexivity|].
    cbn [w_entry ex_world ex_entry ix ix_uuid ix_fields]. exists off. split; auto. cbn [w_value ex_world sources map]. rewrite Hs. reflexivity.
Qed.
(* row 1 of fragment 0 is looked up, in vain, with its value in file 11 *)
Lemma not_claimed : forall e f n, In (ix 100 [0]) (e_idx e) -> In f (m_fragments (e_man e)) -> f_id f = 0 -> f_rowids f = None -> f_rows f = Some n -> 1 < n -> f_del f = None ->
  (exists pl, source 0%Z f = Some pl /\ pl_path pl = 11) -> ~ claims_true ex_world e.
Proof.
  intros e f n Hx Hf Hi Hw Hr Hn Hd [pl [Hs Hp]] H. destruct (H _ Hx) as [_ H2]. specialize (H2 [0] f eq_refl Hf). rewrite Hi in H2. specialize (H2 (or_introl eq_refl) 1).
  destruct H2 as [a [Ha [off [E1 E2]]]].
  - split; [exists n; auto|]. unfold gone. rewrite Hd. auto.
  - unfold row_ref in Ha. rewrite Hw, Hi in Ha. injection Ha as <-. injection E1 as <-. cbn [ix_fields ix w_value ex_world sources map] in E2. rewrite Hs in E2. cbn [option_map] in E2. rewrite Hp in E2. discriminate.
Qed.
Lemma claims_nil : forall w e, e_idx e = [] -> claims_true w e.
Proof. intros w e E ix Hx. rewrite E in Hx. destruct Hx. Qed.
Lemma claims_one : forall e, e_idx e = [ix 100 [0]] -> m_fragments (e_man e) = [f0] -> In 0%Z (field_ids (m_schema (e_man e))) -> claims_true ex_world e.
Proof.
  intros e E Ef Hz x Hx. rewrite E in Hx. destruct Hx as [<-|[]]. split; [intros z [<-|[]]; auto|]. intros b f Hb Hf _. rewrite Ef in Hf. destruct Hf as [<-|[]].
  intros off _. eexists. split; [reflexivity|]. exists off. split; reflexivity.
Qed.
Ltac fresh100 := intros ? ? He Hx; cbn [In] in He; repeat (destruct He as [<-|He]); try destruct He; cbn in Hx; destruct Hx.
Ltac built f := eapply (index_built _ _ _ _ f); [reflexivity|reflexivity|reflexivity|reflexivity|reflexivity|cbn; auto|fresh100].

Ltac start n l := let h := eval vm_compute in (firstn n (hist l)) in let e := eval vm_compute in (nth_entry n l) in
  exists ex_world, h, e; replace (h ++ [e]) with (hist l) by (vm_compute; reflexivity); split; [good_ok|].
(* merge_insert with part of the columns, updating an indexed column in place *)
Definition inplace_h := [(created, dflt); (indexing 1 2, dflt); (tx 2 3 (Update [] [f0'] []), dflt)].
Lemma update_in_place_refuted : broken_by (fun h t => exists m f u z x, t_op t = Update [] [u] [] /\ latest h = Some m /\ man_at h (t_read t) = Some m /\ In f (m_fragments m) /\
  rewritten_in_place z f u /\ option_map e_idx (last_entry h) = Some [x] /\ In z (ix_fields x)).
Proof.
  start 2%nat inplace_h. split; [|split; [|split]].
  - apply every_entries. vm_compute hist. cbn [every app e_txn]. split; [exact I|]. split; [built f0|]. split; [|exact I]. unfold writer_honest. cbn [t_op t_read].
    constructor; [|constructor]. do 2 eexists. split; [reflexivity|]. split; [left; reflexivity|]. repeat split; auto.
  - eexists. exists f0, f0', 0%Z, (ix 100 [0]). split; [reflexivity|]. split; [reflexivity|]. split; [reflexivity|]. split; [left; reflexivity|].
    split; [split; [reflexivity|split; [reflexivity|discriminate]]|]. split; [reflexivity|left; reflexivity].
  - intros x Hx. destruct Hx as [<-|[<-|[]]]; [now apply claims_nil|apply claims_one; cbn; auto].
  - eapply (not_claimed _ f0' 5); try reflexivity; try (left; reflexivity). eexists. split; reflexivity.
Qed.
(* the same update, committed while the index is built *)
Definition race_h := [(created, dflt); (tx 1 2 (Update [] [f0'] []), dflt); (indexing 1 3, dflt)].
Lemma index_after_update_refuted : broken_by (fun h t => exists m0 m f u z x, t_op t = CreateIndex [x] [] /\ In z (ix_fields x) /\ man_at h (t_read t) = Some m0 /\ latest h = Some m /\ In f (m_fragments m0) /\ In u (m_fragments m) /\
  rewritten_in_place z f u).
Proof.
  start 2%nat race_h. split; [|split; [|split]].
  - apply every_entries. vm_compute hist. cbn [every app e_txn]. split; [exact I|]. split; [|split; [built f0|exact I]]. unfold writer_honest. cbn [t_op t_read].
    constructor; [|constructor]. do 2 eexists. split; [reflexivity|]. split; [left; reflexivity|]. repeat split; auto.
  - do 2 eexists. exists f0, f0', 0%Z, (ix 100 [0]). split; [reflexivity|]. split; [left; reflexivity|]. split; [reflexivity|]. split; [reflexivity|]. split; [left; reflexivity|].
    split; [left; reflexivity|]. split; [reflexivity|split; [reflexivity|discriminate]].
  - intros x Hx. destruct Hx as [<-|[<-|[]]]; now apply claims_nil.
  - eapply (not_claimed _ f0' 5); try reflexivity; try (left; reflexivity). eexists. split; reflexivity.
Qed.
(* all rows are deleted and others appended while the index is built: fragment id 0 is given out again *)
Definition reused_h := [(created, dflt); (tx 1 2 (Delete [] [0]), dflt); (tx 2 3 (Append [frag 0 11 6 [0%Z; 1%Z]]), dflt); (indexing 1 4, dflt)].
Lemma index_after_reuse_refuted : broken_by (fun h t => exists x ids l, t_op t = CreateIndex [x] [] /\ map (fun e => t_op (e_txn e)) (since h (t_read t)) = [Delete [] ids; Append l]).
Proof.
  start 3%nat reused_h. split; [|split; [|split]].
  - apply every_entries. vm_compute hist. cbn [every app e_txn]. split; [exact I|]. split; [constructor|]. split; [exact I|]. split; [built f0|exact I].
  - do 3 eexists. split; reflexivity.
  - intros x Hx. destruct Hx as [<-|[<-|[<-|[]]]]; now apply claims_nil.
  - eapply (not_claimed _ (frag 0 11 6 [0%Z; 1%Z]) 6); try reflexivity; try (left; reflexivity). eexists. split; reflexivity.
Qed.
(* a data replacement of an indexed column *)
Definition replaced_h := [(created2, dflt); (indexing 1 2, dflt); (tx 2 3 (DataReplacement [(0, file 11 [0%Z])]), dflt)].
Lemma replacement_refuted : broken_by (fun h t => exists d x z id, t_op t = DataReplacement [(id, d)] /\ option_map e_idx (last_entry h) = Some [x] /\ In z (ix_fields x) /\ In z (df_fields d) /\
  since h (t_read t) = []).
Proof.
  start 2%nat replaced_h. split; [|split; [|split]].
  - apply every_entries. vm_compute hist. cbn [every app e_txn]. split; [exact I|]. split; [built (two_files 0)|]. split; exact I.
  - exists (file 11 [0%Z]), (ix 100 [0]), 0%Z, 0. split; [reflexivity|]. split; [reflexivity|]. split; [left; reflexivity|]. split; [left; reflexivity|reflexivity].
  - intros x Hx. destruct Hx as [<-|[<-|[]]]; [now apply claims_nil|].
    intros y [<-|[]]. split; [intros z [<-|[]]; cbn; auto|]. intros b f Hb [<-|[]] _ off _. eexists. split; [reflexivity|]. exists off. split; reflexivity.
  - eapply (not_claimed _ {| f_id := 0; f_files := [file 11 [0%Z]; file 11 [1%Z]]; f_del := None; f_rowids := None; f_rows := Some 5 |} 5); try reflexivity; try (left; reflexivity). eexists. split; reflexivity.
Qed.
(* a column replaced while it is indexed (alter_columns with a cast commits a Merge whose schema has a
   new field id, dataset/schema_evolution.rs:465-650): the index is on a field that is not in the schema *)
Definition dropped_h := [(created, dflt); (tx 1 2 (Merge [frag 0 10 5 [0%Z; 1%Z]] (sch [1%Z])), dflt); (indexing 1 3, dflt)].
Lemma index_after_drop_refuted : broken_by (fun h t => exists x z m, t_op t = CreateIndex [x] [] /\ In z (ix_fields x) /\ latest h = Some m /\ ~ In z (field_ids (m_schema m))).
Proof.
  start 2%nat dropped_h. split; [|split; [|split]].
  - apply every_entries. vm_compute hist. cbn [every app e_txn]. split; [exact I|]. split; [|split; [built f0|exact I]]. unfold writer_honest. cbn [t_op t_read].
    eexists. split; [reflexivity|]. constructor; [|constructor]. split; [|auto]. repeat split; auto.
  - exists (ix 100 [0]), 0%Z. eexists. split; [reflexivity|]. split; [left; reflexivity|]. split; [reflexivity|]. cbn. intros [C|[]]; discriminate.
  - intros x Hx. destruct Hx as [<-|[<-|[]]]; now apply claims_nil.
  - intros H. destruct (H (ix 100 [0])) as [H1 _]; [left; reflexivity|]. specialize (H1 0%Z (or_introl eq_refl)). vm_compute in H1. destruct H1 as [C|[]]; discriminate.
Qed.
