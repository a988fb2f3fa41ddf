(* The filtered scan returns the surviving rows that satisfy the predicate. *)
From Coq Require Import List Arith NArith ZArith Bool Lia.
From Coq Require Import ZifyBool ZifyN ZifyNat.
From Verif Require Import Lib AMap RowIdsModel RowIdsSpec SeqProofs SerdeModel ReadParamsModel ReadParamsProofs TreeMapModel TreeMapProofs
  DeletionModel DeletionSpec DeletionProofs StreamModel StreamProofs StatsModel StatsProofs StatsBytes StatsCollect PushModel PushProofs.
Import ListNotations.
Local Open Scope nat_scope.

(* ---- specification ---- *)
Definition rows_of (g : frag) : list row := concat (map page_rows (g_pages g)).
Definition gone (g : frag) (o : nat) : bool := match g_dv g with Some d => dv_contains d (N.of_nat o) | None => false end.
Definition rowid_of (g : frag) (o : nat) : cell :=
  match g_seq g with
  | Some q => match nth_error (seq_iter q) o with Some v => CVal v | None => CNull end
  | None => CVal (g_id g * two32 + N.of_nat o)
  end.
Definition holds {L : lang} (e : expr L) (r : row) : bool := match e_eval L e r with Some true => true | _ => false end.
Definition want_row (g : frag) (k : scan_config) (x : nat * row) : out_row :=
  {| u_vals := map (snd x) (k_fields k);
     u_id := if k_id k then rowid_of g (fst x) else NoCol;
     u_addr := if k_addr k then CVal (g_id g * two32 + N.of_nat (fst x)) else NoCol |}.
Definition want_rows (g : frag) (k : scan_config) (test : row -> bool) (P : list (nat * row)) : list out_row :=
  map (want_row g k) (filter (fun x => negb (gone g (fst x)) && test (snd x)) P).
(* the surviving rows that pass, in order, with their ids and addresses *)
Definition want (g : frag) (k : scan_config) (test : row -> bool) : list out_row :=
  want_rows g k test (combine (seq 0 (length (rows_of g))) (rows_of g)).

(* a value within a guarantee *)
Definition within (lo hi : option value) (v : value) : Prop :=
  (forall a, lo = Some a -> vle a v) /\ (forall b, hi = Some b -> vle v b).
Definition sat (i : ninterval) (o : option value) : Prop :=
  match i with
  | NNull => o = None
  | NMaybe lo hi => forall v, o = Some v -> within lo hi v
  | NNot lo hi => exists v, o = Some v /\ within lo hi v
  end.

(* what is assumed of DataFusion: a predicate reads only its columns, a literal is constant, and a simplified predicate
   holds for the same rows among those that satisfy the guarantees *)
Record lang_ok (L : lang) : Prop := {
  lo_columns : forall e r r', (forall f, In f (e_columns L e) -> r f = r' f) -> e_eval L e r = e_eval L e r';
  lo_literal : forall e b, e_literal L e = Some b -> forall r, e_eval L e r = b;
  lo_simplify : forall gs e e', e_simplify L gs e = Some e' ->
    forall r, (forall f i, In (f, i) gs -> sat i (r f)) -> holds e' r = holds e r }.

(* pages of equal length but for the last, row offsets that fit 32 bits *)
Record frag_ok (g : frag) : Prop := {
  fo_id : (g_id g < two32)%N;
  fo_len : (N.of_nat (length (rows_of g)) < two32)%N;
  fo_pages : forall b, b < length (g_pages g) -> length (concat (map page_rows (firstn b (g_pages g)))) = b * first_page_len g }.
(* row ids are the addresses, are not asked for, or the fragment has one page *)
Definition ids_ok (g : frag) (k : scan_config) : Prop :=
  k_id k = true -> match g_seq g with None => True | Some q => length (g_pages g) <= 1 /\ seq_wf q /\ length (seq_iter q) = length (rows_of g) end.

(* ---- reads of one page ---- *)
Section Page.
  Variables (g : frag) (b : nat) (p : list (list row)).
  Hypothesis Hb : nth_error (g_pages g) b = Some p.
  Let off := b * first_page_len g.
  Let P := combine (seq off (length (page_rows p))) (page_rows p).
  Hypothesis Hid : (g_id g < two32)%N.
  Hypothesis Hoff : forall x, In x P -> (N.of_nat (fst x) < two32)%N.

  Definition idn (o : nat) : N := match g_seq g with Some q => nth o (seq_iter q) 0%N | None => new_from_parts (g_id g) (N.of_nat o) end.
  Definition ent (fs : list nat) (x : nat * row) : @entry row := (keep_fields fs (snd x), (fst x, idn (fst x))).
  Definition alive (x : nat * row) : bool := negb (gone g (fst x)).
  Definition cfg (ps : params) (wi wa nl : bool) : rid_config :=
    {| c_params := ps; c_with_id := wi; c_with_addr := wa; c_dv := g_dv g; c_seq := g_seq g; c_null := nl |}.
  Definition ids_here (wi : bool) : Prop :=
    wi = true -> match g_seq g with None => True | Some q => off = 0 /\ seq_wf q /\ length (page_rows p) <= length (seq_iter q) end.

  Lemma P_fst : map fst P = seq off (length (page_rows p)).
  Proof. unfold P. apply map_fst_combine. apply seq_length. Qed.
  Lemma P_snd : map snd P = page_rows p.
  Proof. unfold P. apply map_snd_combine. apply seq_length. Qed.
  Lemma P_len : length P = length (page_rows p).
  Proof. rewrite <- P_snd. symmetry. apply map_length. Qed.

  Lemma firstn_nth_seq : forall (l : list N) n, n <= length l -> firstn n l = map (fun o => nth o l 0%N) (seq 0 n).
  Proof.
    induction l as [|x l IH]; intros [|n] H; cbn [length] in H; try lia; auto. cbn [firstn seq map nth]. f_equal.
    rewrite IH by lia. rewrite <- seq_shift, map_map. reflexivity.
  Qed.

  Lemma read_page : forall wi wa nl fs, ids_here wi ->
    legacy_read g b None wi wa nl fs =
    Ok (let c := cfg (PRange off (off + length (page_rows p))) wi wa nl in
        if nl then if forallb (fun x => negb (alive x)) P then []
                   else map (fun x => if alive x then mk c (g_id g) (ent fs x) else mk_null c (g_id g) (ent fs x)) P
        else map (fun x => mk c (g_id g) (ent fs x)) (filter alive P)).
  Proof.
    intros wi wa nl fs Hi. unfold legacy_read. rewrite Hb. fold off. cbn zeta.
    set (c := {| c_params := _; c_with_id := _ |}). change (cfg (PRange off (off + length (page_rows p))) wi wa nl) with c.
    assert (Ev : map (keep_fields fs) (page_rows p) = map e_val (map (ent fs) P)).
    { rewrite map_map. unfold ent. cbn [e_val fst]. rewrite <- P_snd, map_map. reflexivity. }
    rewrite Ev. rewrite (apply_full (map (ent fs) P) (g_id g) c (PRange off (off + length (page_rows p)))).
    - cbn [c_null c]. f_equal.
      assert (Hl : forall x, live_e c (ent fs x) = alive x) by reflexivity.
      destruct nl.
      + replace (forallb (fun e => negb (live_e c e)) (map (ent fs) P)) with (forallb (fun x => negb (alive x)) P)
          by (clear; induction P; cbn [map forallb]; f_equal; auto).
        rewrite map_map. reflexivity.
      + rewrite <- (map_map (ent fs) (mk c (g_id g))). f_equal.
        clear. induction P as [|x l IH]; auto. cbn [map filter]. change (live_e c (ent fs x)) with (alive x). destruct (alive x); cbn [map]; congruence.
    - exact Hid.
    - intros e He. apply in_map_iff in He as (x & <- & Hx). apply (Hoff x Hx).
    - rewrite map_length, P_len. cbn [c_params c p_slice]. rewrite !Nat.add_0_r.
      replace (off + length (page_rows p) <? off + length (page_rows p)) with false by (symmetry; apply Nat.ltb_irrefl). reflexivity.
    - cbn [to_offsets]. f_equal. unfold rng. rewrite map_map. replace (off + length (page_rows p) - off) with (length (page_rows p)) by lia.
      rewrite <- P_fst. reflexivity.
    - cbn [c_with_id c c_seq]. intros Hw. specialize (Hi Hw). destruct (g_seq g) as [q|] eqn:Eq.
      + destruct Hi as (H0 & Hwf & Hlen). rewrite map_length, P_len, slice_ids_ok; [|exact Hwf|cbn; lia].
        f_equal. cbn [skipn]. rewrite firstn_nth_seq by lia. rewrite map_map. cbn [ent e_id snd].
        unfold idn. rewrite Eq. rewrite <- (map_map fst (fun o => nth o (seq_iter q) 0%N)), P_fst, H0. reflexivity.
      + intros e He. apply in_map_iff in He as (x & <- & Hx). cbn [ent e_id snd e_off]. unfold idn. rewrite Eq. reflexivity.
  Qed.

  Lemma positions_offs : forall (kk : nat * row -> bool) rows s,
    positions kk (combine (seq s (length rows)) rows) s = map fst (filter kk (combine (seq s (length rows)) rows)).
  Proof.
    intros kk. induction rows as [|r rows IH]; intros s; auto. cbn [length seq combine filter]. rewrite positions_cons, IH.
    destruct (kk (s, r)); reflexivity.
  Qed.

  Lemma read_selected : forall kk fs, (forall x, kk x = true -> alive x = true) ->
    legacy_read g b (Some (positions kk P 0)) false false false fs =
    Ok (map (fun x => {| o_val := keep_fields fs (snd x); o_id := NoCol; o_addr := NoCol |}) (filter kk P)).
  Proof.
    intros kk fs Hk. unfold legacy_read. rewrite Hb. fold off. cbn zeta.
    rewrite <- P_snd at 1. rewrite positions_take, positions_shift. cbn [plus].
    assert (Ep : positions kk P off = map fst (filter kk P)) by apply positions_offs. rewrite Ep.
    assert (Ev : map (keep_fields fs) (map snd (filter kk P)) = map e_val (map (ent fs) (filter kk P))) by (rewrite !map_map; reflexivity).
    rewrite Ev. set (c := {| c_params := _; c_with_id := _ |}).
    rewrite (apply_full (map (ent fs) (filter kk P)) (g_id g) c (PIdx (map fst (filter kk P)))).
    - cbn [c_null c]. f_equal. rewrite filter_all_true.
      + rewrite map_map. reflexivity.
      + intros e He. apply in_map_iff in He as (x & <- & Hx). apply filter_In in Hx as [_ Hx]. exact (Hk x Hx).
    - exact Hid.
    - intros e He. apply in_map_iff in He as (x & <- & Hx). apply filter_In in Hx as [Hx _]. apply (Hoff x Hx).
    - cbn [c_params c p_slice]. rewrite !map_length, Nat.add_0_l. replace (length (filter kk P) <? length (filter kk P)) with false by (symmetry; apply Nat.ltb_irrefl).
      cbn [skipn]. rewrite <- (map_length fst (filter kk P)) at 1. rewrite firstn_all. reflexivity.
    - cbn [to_offsets]. f_equal. rewrite map_map. reflexivity.
    - cbn [c_with_id c]. discriminate.
  Qed.

  Lemma addr_is : forall x, In x P -> new_from_parts (g_id g) (N.of_nat (fst x)) = (g_id g * two32 + N.of_nat (fst x))%N.
  Proof. intros x Hx. apply new_from_parts_add; auto. Qed.
  Lemma id_is : forall wi x, wi = true -> ids_here wi -> In x P -> CVal (idn (fst x)) = rowid_of g (fst x).
  Proof.
    intros wi x Hw Hi Hx. specialize (Hi Hw). unfold idn, rowid_of. destruct (g_seq g) as [q|] eqn:Eq; [|f_equal; apply addr_is; auto].
    destruct Hi as (H0 & _ & Hl). assert (Hr : fst x < length (seq_iter q)).
    { apply (in_map fst) in Hx. rewrite P_fst in Hx. apply in_seq in Hx. lia. }
    rewrite (nth_error_nth' (seq_iter q) 0%N Hr). reflexivity.
  Qed.

  (* the rows emitted for a page under any predicate that agrees with [test] on its rows *)
  Lemma keep_map : forall fs r, map (keep_fields fs r) fs = map r fs.
  Proof. intros fs r. apply map_ext_in. intros f Hf. unfold keep_fields. apply memb_In in Hf. now rewrite Hf. Qed.

  Context {L : lang} (HL : lang_ok L) (k : scan_config) (test : row -> bool) (e : expr L).
  Hypothesis Hids : ids_here (k_id k).
  Hypothesis Htest : forall r, In r (page_rows p) -> holds e r = test r.

  Lemma in_P_row : forall x, In x P -> In (snd x) (page_rows p).
  Proof. intros x Hx. rewrite <- P_snd. apply in_map. exact Hx. Qed.

  (* selecting from the predicate columns and the remaining columns gives the projected row *)
  Lemma final_row : forall x c pcols, In x P -> c_with_id c = k_id k -> c_with_addr c = true ->
    final_projection k {| o_val := fun f => if memb f pcols then keep_fields pcols (snd x) f
                                            else keep_fields (filter (fun f => negb (memb f pcols)) (k_fields k)) (snd x) f;
                          o_id := o_id (mk c (g_id g) (ent pcols x)); o_addr := o_addr (mk c (g_id g) (ent pcols x)) |} = want_row g k x.
  Proof.
    intros x c pcols Hx Ei Ea. unfold final_projection, want_row. cbn [o_val o_id o_addr mk]. rewrite Ei, Ea. f_equal.
    - apply map_ext_in. intros f Hf. unfold keep_fields. destruct (memb f pcols) eqn:Em; auto.
      replace (memb f (filter _ (k_fields k))) with true; auto. symmetry. apply memb_In. apply filter_In. rewrite Em. auto.
    - destruct (k_id k) eqn:Ek; auto. cbn [ent e_id snd]. apply (id_is true); auto.
    - destruct (k_addr k); auto. cbn [ent e_off fst snd]. f_equal. apply addr_is; auto.
  Qed.
  Lemma final_row_all : forall x c pcols, In x P -> c_with_id c = k_id k -> c_with_addr c = true ->
    (forall f, In f (k_fields k) -> In f pcols) ->
    final_projection k (mk c (g_id g) (ent pcols x)) = want_row g k x.
  Proof.
    intros x c pcols Hx Ei Ea Hin. unfold final_projection, want_row. cbn [o_val o_id o_addr mk]. rewrite Ei, Ea. f_equal.
    - apply map_ext_in. intros f Hf. cbn [ent e_val fst]. unfold keep_fields. apply Hin, memb_In in Hf. now rewrite Hf.
    - destruct (k_id k) eqn:Ek; auto. cbn [ent e_id snd]. apply (id_is true); auto.
    - destruct (k_addr k); auto. cbn [ent e_off fst snd]. f_equal. apply addr_is; auto.
  Qed.

  Lemma combine_maps : forall {X Y Z} (f : X -> Y) (h : X -> Z) l, combine (map f l) (map h l) = map (fun x => (f x, h x)) l.
  Proof. induction l; cbn [map combine]; congruence. Qed.

  Lemma want_filter : forall kk, (forall x, In x P -> kk x = alive x && test (snd x)) -> want_rows g k test P = map (want_row g k) (filter kk P).
  Proof.
    intros kk H. unfold want_rows. f_equal. apply filter_ext_in'. intros x Hx. rewrite (H x Hx). reflexivity.
  Qed.


  Definition passing (x : nat * row) : bool := alive x && holds e (snd x).
  Lemma passing_want : want_rows g k test P = map (want_row g k) (filter passing P).
  Proof. apply want_filter. intros x Hx. unfold passing. rewrite Htest; auto. apply in_P_row; auto. Qed.

  Lemma matched_positions : forall (v : row -> option bool) (batch : list (orow row)),
    matched (map (fun o => v (o_val o)) batch) batch =
    positions (fun o => match v (o_val o) with Some true => true | _ => false end && is_val (o_addr o)) batch 0.
  Proof.
    intros v batch. unfold matched, positions. generalize 0 as s.
    induction batch as [|o l IH]; intros s; auto. cbn [length seq map combine flat_map]. rewrite IH. reflexivity.
  Qed.
  Lemma positions_map : forall {X Y} (q : Y -> bool) (F : X -> Y) l s, positions q (map F l) s = positions (fun x => q (F x)) l s.
  Proof. induction l as [|x l IH]; intros s; auto. cbn [map]. rewrite !positions_cons, IH. reflexivity. Qed.

  Lemma page_scan_eval : forall o,
    (let pcols := e_columns L e in
      match legacy_read g b None (k_id k) true true pcols with
      | Err => Err | Panic => Panic
      | Ok batch =>
          let sel := match evaluate e batch with
                     | Scalar (Some true) => Some None
                     | Scalar _ => None
                     | Arr arr => match matched arr batch with [] => None | l => Some (Some l) end
                     end in
          match sel with
          | None => Ok None
          | Some sel =>
              let remaining := filter (fun f => negb (memb f pcols)) (k_fields k) in
              let remainder := match remaining with
                               | [] => Ok None
                               | _ => match legacy_read g b sel false false false remaining with
                                      | Ok r => Ok (Some r) | Err => Err | Panic => Panic end
                               end in
              match remainder with
              | Err => Err | Panic => Panic
              | Ok remainder =>
                  let taken := match sel with
                               | Some l => sequence_opt (map (nth_error batch) l)
                               | None => Some (filter (fun o => is_val (o_addr o)) batch)
                               end in
                  match taken with
                  | None => Err
                  | Some taken =>
                      match (match remainder with None => Ok taken | Some r => merge_rows pcols taken r end) with
                      | Ok rows => Ok (Some (map (final_projection k) rows))
                      | Err => Err | Panic => Panic
                      end
                  end
              end
          end
      end) = o -> exists r, o = Ok r /\ match r with Some rows => rows | None => [] end = want_rows g k test P.
  Proof.
    intros o. cbn zeta. set (pcols := e_columns L e). rewrite read_page by auto. cbn zeta.
    set (c := cfg _ (k_id k) true true). set (F := fun x => if alive x then _ else _).
    set (remaining := filter _ (k_fields k)).
    assert (Ev : forall x, e_eval L e (o_val (F x)) = e_eval L e (snd x)).
    { intros x. apply (lo_columns L HL). intros f Hf. unfold F. destruct (alive x); cbn [mk mk_null o_val ent e_val fst]; unfold keep_fields;
        apply memb_In in Hf; fold pcols in Hf; now rewrite Hf. }
    assert (Ea : forall x, is_val (o_addr (F x)) = alive x).
    { intros x. unfold F. destruct (alive x); reflexivity. }
    assert (Fin : forall x, In x P -> alive x = true -> F x = mk c (g_id g) (ent pcols x)).
    { intros x _ Hx. unfold F. now rewrite Hx. }
    assert (Hnil : remaining = [] -> forall f, In f (k_fields k) -> In f pcols).
    { intros Er f Hf. destruct (memb f pcols) eqn:Em; [apply memb_In; auto|]. exfalso.
      assert (In f remaining) by (apply filter_In; rewrite Em; auto). rewrite Er in H. destruct H. }
    rewrite passing_want.
    assert (Evl : (pcols = [] /\ forall bt, evaluate e bt = Scalar (e_eval L e (fun _ => None))) \/
                  (forall bt, evaluate e bt = Arr (map (fun o => e_eval L e (o_val o)) bt))).
    { unfold evaluate. fold pcols. clear. destruct pcols; auto. }
    destruct Evl as [[Epc Evl]|Evl]; rewrite Evl.
    - (* no columns: the predicate is the same for every row *)
      assert (Hc : forall r, e_eval L e r = e_eval L e (fun _ => None)).
      { intros r. apply (lo_columns L HL). fold pcols. rewrite Epc. intros f []. }
      destruct (e_eval L e (fun _ => None)) as [[|]|] eqn:Ee.
      2,3: intros <-; exists None; split; auto; rewrite filter_all_false; auto; intros x _; unfold passing, holds; rewrite Hc, ?Ee; now rewrite andb_false_r.
      assert (Ep : filter passing P = filter alive P).
      { apply filter_ext. intros x. unfold passing, holds. rewrite Hc, ?Ee. now rewrite andb_true_r. }
      rewrite Ep.
      assert (Et : filter (fun o => is_val (o_addr o)) (if forallb (fun x => negb (alive x)) P then [] else map F P) = map F (filter alive P)).
      { destruct (forallb _ P) eqn:Ed.
        - rewrite (filter_all_false alive); auto. intros x Hx. rewrite forallb_forall in Ed. apply Ed in Hx. now apply negb_true_iff.
        - clear -Ea. induction P as [|x l IH]; auto. cbn [map filter]. rewrite Ea. destruct (alive x); cbn [map]; congruence. }
      rewrite Et. assert (Erm : remaining = [] \/ exists f0 rm, remaining = f0 :: rm) by (clear; destruct remaining; eauto).
      destruct Erm as [Er|(f0 & rm & Er)]; rewrite Er.
      + intros <-. eexists. split; [reflexivity|]. cbn beta iota. rewrite map_map. apply map_ext_in. intros x Hx. apply filter_In in Hx as [Hx Hal].
        rewrite (Fin x Hx Hal). apply final_row_all; auto.
      + rewrite <- Er. rewrite read_page by (intros H; discriminate H). cbn zeta iota. unfold merge_rows. rewrite !map_length, Nat.eqb_refl, combine_maps, map_map.
        intros <-. eexists. split; [reflexivity|]. cbn beta iota. rewrite map_map. apply map_ext_in. intros x Hx. apply filter_In in Hx as [Hx Hal].
        rewrite (Fin x Hx Hal). exact (final_row x c pcols Hx eq_refl eq_refl).
    - rewrite (matched_positions (e_eval L e)).
      destruct (forallb (fun x => negb (alive x)) P) eqn:Ed.
      { intros <-. exists None. split; auto. rewrite filter_all_false; auto. intros x Hx. rewrite forallb_forall in Ed. apply Ed in Hx.
        apply negb_true_iff in Hx. unfold passing. now rewrite Hx. }
      rewrite positions_map.
      assert (Epos : positions (fun x => match e_eval L e (o_val (F x)) with Some true => true | _ => false end && is_val (o_addr (F x))) P 0 = positions passing P 0).
      { apply positions_ext; auto. intros i x y Hx Hy. rewrite Hx in Hy. injection Hy as <-. rewrite Ev, Ea. unfold passing, holds. apply andb_comm. }
      rewrite Epos. destruct (positions passing P 0) as [|i0 is] eqn:Ei.
      { intros <-. exists None. split; auto. apply positions_nil in Ei. now rewrite Ei. }
      rewrite <- Ei. rewrite positions_take.
      assert (Hpass : forall x, passing x = true -> alive x = true) by (intros x; unfold passing; intros H; apply andb_true_iff in H; tauto).
      assert (Erm : remaining = [] \/ exists f0 rm, remaining = f0 :: rm) by (clear; destruct remaining; eauto).
      destruct Erm as [Er|(f0 & rm & Er)]; rewrite Er.
      + intros <-. eexists. split; [reflexivity|]. cbn beta iota. rewrite map_map. apply map_ext_in. intros x Hx. apply filter_In in Hx as [Hx Hal].
        rewrite (Fin x Hx (Hpass x Hal)). apply final_row_all; auto.
      + rewrite <- Er. rewrite read_selected by auto. cbn iota. unfold merge_rows. rewrite !map_length, Nat.eqb_refl, combine_maps, map_map.
        intros <-. eexists. split; [reflexivity|]. cbn beta iota. rewrite map_map. apply map_ext_in. intros x Hx. apply filter_In in Hx as [Hx Hal].
        rewrite (Fin x Hx (Hpass x Hal)). exact (final_row x c pcols Hx eq_refl eq_refl).
  Qed.

  Theorem page_scan : exists o, read_batch g k b e = Ok o /\ match o with Some rows => rows | None => [] end = want_rows g k test P.
  Proof.
    unfold read_batch. destruct (e_literal L e) as [[[|]|]|] eqn:El.
    - (* always true *)
      rewrite read_page by auto. eexists. split; [reflexivity|]. cbn zeta. rewrite map_map.
      rewrite (want_filter alive).
      2:{ intros x Hx. rewrite <- Htest by (apply in_P_row; auto). unfold holds. rewrite (lo_literal L HL e _ El). now rewrite andb_true_r. }
      apply map_ext_in. intros x Hx. apply filter_In in Hx as [Hx _].
      unfold final_projection, want_row. cbn [o_val o_id o_addr mk c_with_id c_with_addr cfg]. f_equal.
      + cbn [ent e_val fst]. apply keep_map.
      + destruct (k_id k) eqn:Ek; auto. cbn [ent e_id snd]. apply (id_is true); auto.
      + destruct (k_addr k); auto. cbn [ent e_off fst snd]. f_equal. apply addr_is; auto.
    - (* always false *)
      exists None. split; auto. rewrite (want_filter (fun _ => false)).
      + rewrite filter_all_false by auto. reflexivity.
      + intros x Hx. rewrite <- Htest by (apply in_P_row; auto). unfold holds. rewrite (lo_literal L HL e _ El). now rewrite andb_false_r.
    - destruct (page_scan_eval _ eq_refl) as (r & Hr & Hw). exists r. split; auto.
    - destruct (page_scan_eval _ eq_refl) as (r & Hr & Hw). exists r. split; auto.
  Qed.

End Page.

(* ---- the guarantees of a page ---- *)
Lemma vle_vcmp : forall a b, vle a b -> vcmp a b <> Gt.
Proof.
  intros [x|x|x|x] [y|y|y|y] H; cbn [vle vcmp] in *; try contradiction; auto.
  - destruct x, y; cbn in *; discriminate.
Qed.
Lemma sequence_nth : forall {X Y} (f : X -> option Y) l m, sequence_opt (map f l) = Some m ->
  length m = length l /\ forall i x, nth_error l i = Some x -> exists y, nth_error m i = Some y /\ f x = Some y.
Proof.
  intros X Y f. induction l as [|x l IH]; intros m H; cbn [map sequence_opt] in H.
  - injection H as <-. split; auto. intros [|i] x E; discriminate.
  - destruct (f x) as [y|] eqn:Ef; [|discriminate]. destruct (sequence_opt (map f l)) as [m'|] eqn:Em; [|discriminate]. injection H as <-.
    destruct (IH m' eq_refl) as [Hl Hn]. split; [cbn [length]; congruence|]. intros [|i] z E; cbn [nth_error] in *; eauto. injection E as <-. eauto.
Qed.
Lemma sequence_total : forall {X Y} (f : X -> option Y) l, (forall x, In x l -> exists y, f x = Some y) -> exists m, sequence_opt (map f l) = Some m.
Proof.
  intros X Y f. induction l as [|x l IH]; intros H; [exists []; auto|]. destruct (H x (or_introl eq_refl)) as [y Ey].
  destruct IH as [m Em]; [intros z Hz; apply H; right; auto|]. exists (y :: m). cbn [map sequence_opt]. now rewrite Ey, Em.
Qed.
Lemma count_zero : forall {X} (l : list (option X)), count_nulls l = 0%N -> ~ In None l.
Proof.
  intros X l H Hin. unfold count_nulls in H. assert (In None (filter (fun o : option X => match o with None => true | _ => false end) l)) by (apply filter_In; auto).
  destruct (filter _ l); [contradiction|]. cbn [length] in H. lia.
Qed.
Lemma filter_full : forall {X} (q : X -> bool) l, length (filter q l) <= length l /\ (length (filter q l) = length l -> forall x, In x l -> q x = true).
Proof.
  intros X q. induction l as [|y l [IH1 IH2]]; [split; auto; intros _ x []|]. cbn [filter]. destruct (q y) eqn:E; cbn [length]; (split; [lia|]).
  - intros H x [<-|Hx]; auto; apply IH2; auto; lia.
  - intros H. lia.
Qed.
Lemma count_all : forall {X} (l : list (option X)), count_nulls l = N.of_nat (length l) -> forall o, In o l -> o = None.
Proof.
  intros X l H o Ho. unfold count_nulls in H. apply Nat2N.inj in H. apply (proj2 (filter_full _ l) H) in Ho. destruct o; [discriminate|auto].
Qed.
Lemma concat_arrays : forall f p, concat (arrays_of f p) = map (fun r => r f) (page_rows p).
Proof. intros. unfold arrays_of, page_rows. apply concat_map_map. Qed.

(* a column with statistics: its values have the declared type, a field declared non-nullable has no nulls (checked by the
   writer), every write had a batch, and the pages avoid the cases where the statistics are wrong *)
Record column_ok (g : frag) (f : field) : Prop := {
  co_sane : sane (f_type f);
  co_batch : forall p, In p (g_pages g) -> p <> [];
  co_typed : forall p, In p (g_pages g) -> Forall (typed_array (f_type f)) (arrays_of (f_id f) p);
  co_plain : forall p, In p (g_pages g) -> plain (f_type f) (arrays_of (f_id f) p);
  co_nulls : f_nullable f = false -> forall r, In r (rows_of g) -> r (f_id f) <> None }.

Lemma stats_find : forall g stats f, NoDup (map f_id (g_fields g)) -> In f (g_fields g) -> file_stats g = Some stats ->
  match find (fun e => fst e =? f_id f) stats with
  | Some (_, l) => f_stats f = true /\ field_stats g f = Some l
  | None => f_stats f = false
  end.
Proof.
  intros g stats f Hnd Hf. unfold file_stats. revert stats. induction (g_fields g) as [|h fs IH]; [destruct Hf|].
  intros stats H. cbn [map] in Hnd. apply NoDup_cons_iff in Hnd as [Hn Hnd].
  assert (Hnot : forall fs' s, incl fs' fs -> sequence_opt (map (fun f0 => match field_stats g f0 with Some l => Some (f_id f0, l) | None => None end) fs') = Some s ->
    find (fun e => fst e =? f_id h) s = None).
  { induction fs' as [|x fs' IHf]; intros s Hi Es; cbn [map sequence_opt] in Es; [injection Es as <-; auto|].
    destruct (field_stats g x) as [l|]; [|discriminate]. destruct (sequence_opt (map _ fs')) as [s'|] eqn:E'; [|discriminate]. injection Es as <-.
    cbn [find fst]. assert (f_id x <> f_id h) by (intros Ex; apply Hn; rewrite <- Ex; apply in_map, Hi; left; auto).
    destruct (f_id x =? f_id h) eqn:Eq; [apply Nat.eqb_eq in Eq; contradiction|]. apply IHf; auto. intros z Hz. apply Hi. right; auto. }
  cbn [filter] in H. destruct (f_stats h) eqn:Eh.
  - cbn [map sequence_opt] in H. destruct (field_stats g h) as [l|] eqn:El; [|discriminate]. destruct (sequence_opt (map _ (filter f_stats fs))) as [s'|] eqn:Es; [|discriminate].
    injection H as <-. cbn [find fst]. destruct Hf as [<-|Hf]; [rewrite Nat.eqb_refl; auto|].
    assert (f_id h <> f_id f) by (intros Ex; apply Hn; rewrite Ex; apply in_map; auto).
    destruct (f_id h =? f_id f) eqn:Eq; [apply Nat.eqb_eq in Eq; contradiction|]. apply IH; auto.
  - destruct Hf as [<-|Hf]; [|apply IH; auto]. rewrite (Hnot _ _ (incl_filter _ _) H). exact Eh.
Qed.

Lemma guarantee_sound : forall g stats f b p, NoDup (map f_id (g_fields g)) -> In f (g_fields g) -> file_stats g = Some stats ->
  (f_stats f = true -> column_ok g f) -> nth_error (g_pages g) b = Some p ->
  exists o, field_guarantee stats b (length (page_rows p)) f = Some o /\
    forall f' i, o = Some (f', i) -> f' = f_id f /\ forall r, In r (page_rows p) -> sat i (r (f_id f)).
Proof.
  intros g stats f b p Hnd Hf Hs Hc Hp. unfold field_guarantee. pose proof (stats_find g stats f Hnd Hf Hs) as Hfd.
  destruct (find _ stats) as [[x l]|]; [|exists None; split; auto; discriminate]. destruct Hfd as [Hst Hl]. specialize (Hc Hst).
  unfold field_stats in Hl. destruct (sequence_opt _) as [l'|] eqn:El; [|discriminate]. apply sequence_nth in El as [_ Hn].
  destruct (Hn b p Hp) as (s & Es & Ec).
  assert (l' = l) by (unfold finish_stats in Hl; destruct (_ && _); [discriminate|congruence]). subst l'. rewrite Es.
  assert (Hin : In p (g_pages g)) by (eapply nth_error_In; eauto).
  destruct Hc as [Hsane Hbatch Htyped Hplain Hnull].
  destruct (collect_total (f_type f) (arrays_of (f_id f) p)) as (s' & Ec' & Ho & _); auto.
  { unfold arrays_of. intros E. apply map_eq_nil in E. apply (Hbatch p Hin E). }
  rewrite Ec in Ec'. injection Ec' as <-.
  pose proof (collect_covers (f_type f) (arrays_of (f_id f) p) s Hsane (Htyped p Hin) (Hplain p Hin) Ec) as [Hcn Hbd].
  rewrite concat_arrays in Hcn, Hbd.
  assert (Hi : interval_new (st_min s) (st_max s) = Some (st_min s, st_max s)).
  { unfold interval_new. destruct (st_min s) as [a|] eqn:Ea, (st_max s) as [c|] eqn:Eb; auto.
    specialize (Ho a c Ea Eb). apply vle_vcmp in Ho. destruct (vcmp a c); auto. congruence. }
  rewrite Hi. eexists. split; [reflexivity|]. intros f' i E. injection E as <- <-. split; auto. intros r Hr.
  assert (Hw : forall v, r (f_id f) = Some v -> within (st_min s) (st_max s) v).
  { intros v Ev. destruct (Hbd v) as [H1 H2]; [apply in_map_iff; exists r; auto|]. split; auto. }
  assert (Hnn : r (f_id f) <> None -> sat (NNot (st_min s) (st_max s)) (r (f_id f))).
  { intros H. destruct (r (f_id f)) as [v|] eqn:Ev; [|congruence]. exists v. split; auto. }
  destruct (f_nullable f) eqn:En.
  - destruct (st_nulls s =? 0)%N eqn:E0.
    + apply Hnn. intros Ev. apply N.eqb_eq in E0. rewrite Hcn in E0. apply (count_zero _ E0). rewrite <- Ev. apply in_map_iff. exists r; auto.
    + destruct (st_nulls s =? N.of_nat (length (page_rows p)))%N eqn:E1; [|exact Hw]. apply N.eqb_eq in E1. rewrite Hcn in E1.
      rewrite <- (map_length (fun r0 : row => r0 (f_id f)) (page_rows p)) in E1. apply (count_all _ E1). apply in_map_iff. exists r; auto.
  - cbn [N.eqb]. apply Hnn. apply Hnull; auto. unfold rows_of. apply in_concat. exists (page_rows p). split; auto. apply in_map; auto.
Qed.

Lemma guarantees_sound : forall g stats fs b p, NoDup (map f_id (g_fields g)) -> incl fs (g_fields g) -> file_stats g = Some stats ->
  (forall f, In f fs -> f_stats f = true -> column_ok g f) -> nth_error (g_pages g) b = Some p ->
  exists gs, guarantees stats fs b (length (page_rows p)) = Some gs /\ forall r f i, In r (page_rows p) -> In (f, i) gs -> sat i (r f).
Proof.
  intros g stats fs b p Hnd Hi Hs Hc Hp. unfold guarantees.
  destruct (sequence_total (field_guarantee stats b (length (page_rows p))) fs) as [m Em].
  { intros f Hf. destruct (guarantee_sound g stats f b p) as (o & Ho & _); eauto. }
  rewrite Em. eexists. split; [reflexivity|]. intros r f i Hr Hin. apply in_flat_map in Hin as ([x|] & Hx & Hin); [|destruct Hin].
  destruct Hin as [->|[]]. apply sequence_nth in Em as [Hlen Hn]. apply In_nth_error in Hx as [j Hj].
  destruct (nth_error fs j) as [h|] eqn:Eh.
  2:{ apply nth_error_None in Eh. assert (nth_error m j <> None) by congruence. apply nth_error_Some in H. lia. }
  destruct (Hn j h Eh) as (y & Ey & Eg). rewrite Hj in Ey. injection Ey as <-. apply nth_error_In in Eh.
  destruct (guarantee_sound g stats h b p) as (o & Ho & Hsat); eauto. rewrite Eg in Ho. injection Ho as <-.
  destruct (Hsat f i eq_refl) as [-> H]. auto.
Qed.

(* ---- the fragment ---- *)
Record scan_ok {L : lang} (g : frag) (k : scan_config) (e : expr L) : Prop := {
  so_frag : frag_ok g;
  so_ids : ids_ok g k;
  so_fields : NoDup (map f_id (g_fields g));
  so_columns : forall f, In f (g_fields g) -> In (f_id f) (e_columns L e) -> f_stats f = true -> column_ok g f;
  so_written : file_stats g <> None }.

Lemma predicates_agree : forall {L : lang} g k (e : expr L), lang_ok L -> scan_ok g k e -> exists es, simplified_predicates g e = Some es /\
  Forall2 (fun p e' => forall r, In r (page_rows p) -> holds e' r = holds e r) (g_pages g) es.
Proof.
  intros L g k e HL [_ _ Hnd Hcol Hw]. unfold simplified_predicates. destruct (file_stats g) as [stats|] eqn:Es; [|congruence].
  destruct (_ && _).
  2:{ eexists. split; [reflexivity|]. induction (g_pages g); cbn [map]; constructor; auto. }
  assert (G : forall pre rest, g_pages g = pre ++ rest -> exists es,
    sequence_opt (map (fun '(b, p) => page_predicate g stats e b p) (combine (seq (length pre) (length rest)) rest)) = Some es /\
    Forall2 (fun p e' => forall r, In r (page_rows p) -> holds e' r = holds e r) rest es).
  { intros pre rest. revert pre. induction rest as [|p rest IH]; intros pre Ep; [exists []; auto|].
    destruct (IH (pre ++ [p])) as (es & He & Hf); [rewrite <- app_assoc; auto|]. rewrite app_length, Nat.add_1_r in He.
    cbn [length seq combine map sequence_opt]. unfold page_predicate at 1.
    destruct (guarantees_sound g stats (pred_fields g e) (length pre) p) as (gs & Eg & Hg); auto.
    - intros f Hf'. apply filter_In in Hf'. tauto.
    - intros f Hf'. apply filter_In in Hf' as [H1 H2]. apply Hcol; auto. apply memb_In. auto.
    - rewrite Ep, nth_error_app2, Nat.sub_diag; auto.
    - rewrite Eg. destruct (e_simplify L gs e) as [e'|] eqn:Esim; rewrite He; (eexists; split; [reflexivity|]); constructor; auto.
      intros r Hr. apply (lo_simplify L HL gs e e' Esim). intros f i Hi. apply Hg; auto. }
  destruct (G [] (g_pages g) eq_refl) as (es & He & Hf). exists es. auto.
Qed.

Lemma number_app : forall {X} (a c : list X) s, combine (seq s (length (a ++ c))) (a ++ c) =
  combine (seq s (length a)) a ++ combine (seq (s + length a) (length c)) c.
Proof.
  induction a as [|x a IH]; intros c s; cbn [app length seq combine]; [now rewrite Nat.add_0_r|]. rewrite IH. cbn [app]. do 3 f_equal. f_equal. lia.
Qed.
Lemma want_rows_app : forall g k test P Q, want_rows g k test (P ++ Q) = want_rows g k test P ++ want_rows g k test Q.
Proof. intros. unfold want_rows. now rewrite filter_app, map_app. Qed.

Theorem frag_scan_exact : forall {L : lang} g k (e : expr L), lang_ok L -> scan_ok g k e -> frag_scan g k e = Ok (want g k (holds e)).
Proof.
  intros L g k e HL Hok. destruct (predicates_agree g k e HL Hok) as (es & Es & Hf). destruct Hok as [[Hid Hlen Hpg] Hids _ _ _].
  unfold frag_scan. rewrite Es. clear Es.
  assert (G : forall rest (es : list (expr L)) pre, Forall2 (fun p e' => forall r, In r (page_rows p) -> holds e' r = holds e r) rest es -> g_pages g = pre ++ rest ->
    scan_pages g k (combine (seq (length pre) (length es)) es) =
    Ok (want_rows g k (holds e) (combine (seq (length (concat (map page_rows pre))) (length (concat (map page_rows rest)))) (concat (map page_rows rest))))).
  { induction rest as [|p rest IH]; intros es1 pre Hf1 Ep; inversion Hf1; subst; [reflexivity|].
    rename y into e'. rename l' into es'. match goal with H : forall r, In r (page_rows p) -> _ |- _ => rename H into Hpe end.
    cbn [length seq combine scan_pages map concat]. rewrite number_app, want_rows_app.
    assert (Hrest : scan_pages g k (combine (seq (S (length pre)) (length es')) es') =
      Ok (want_rows g k (holds e) (combine (seq (length (concat (map page_rows pre)) + length (page_rows p)) (length (concat (map page_rows rest)))) (concat (map page_rows rest))))).
    { specialize (IH es' (pre ++ [p])). rewrite app_length, Nat.add_1_r, map_app, concat_app, app_length in IH. cbn [map concat] in IH.
      rewrite app_nil_r in IH. apply IH; auto. rewrite <- app_assoc. auto. }
    assert (Hb : nth_error (g_pages g) (length pre) = Some p) by (rewrite Ep, nth_error_app2, Nat.sub_diag; auto).
    assert (Hoff : length (concat (map page_rows pre)) = length pre * first_page_len g).
    { rewrite <- (Hpg (length pre)); [|rewrite Ep, app_length; cbn [length]; lia]. rewrite Ep, firstn_app, Nat.sub_diag, firstn_all. cbn [firstn]. now rewrite app_nil_r. }
    assert (Htot : length (rows_of g) = length (concat (map page_rows pre)) + (length (page_rows p) + length (concat (map page_rows rest)))).
    { unfold rows_of. rewrite Ep, map_app, concat_app, app_length. cbn [map concat]. now rewrite app_length. }
    destruct (page_scan g (length pre) p Hb Hid) with (L := L) (k := k) (test := holds e) (e := e') as (o & Eo & Ew); auto.
    - intros [i r] Hx. apply in_combine_l in Hx. apply in_seq in Hx. cbn [fst]. lia.
    - intros Hk. specialize (Hids Hk). destruct (g_seq g) as [q|]; auto. destruct Hids as (Hi1 & Hi2 & Hi3).
      assert (Hz : length pre = 0) by (rewrite Ep, app_length in Hi1; cbn [length] in Hi1; lia). rewrite Hz. split; [reflexivity|]. split; auto. lia.
    - rewrite Hoff in *. destruct (is_false e') eqn:Ef.
      + rewrite Hrest. f_equal. unfold want_rows at 2. rewrite filter_all_false; auto. intros [i r] Hx. apply in_combine_r in Hx. cbn [snd].
        rewrite <- (Hpe _ Hx). unfold is_false in Ef. destruct (e_literal L e') as [[[|]|]|] eqn:El; try discriminate.
        unfold holds. rewrite (lo_literal L HL e' _ El). apply andb_false_r.
      + rewrite Eo, Hrest, Ew. reflexivity. }
  specialize (G (g_pages g) es [] Hf eq_refl). cbn [length map concat] in G. exact G.
Qed.

Theorem pushdown_exact : forall {L : lang} gs k (e : expr L), lang_ok L -> (forall g, In g gs -> scan_ok g k e) ->
  pushdown_scan gs k e = Ok (flat_map (fun g => want g k (holds e)) gs).
Proof.
  intros L gs k e HL. induction gs as [|g gs IH]; intros H; auto. cbn [pushdown_scan flat_map].
  rewrite frag_scan_exact by (auto; apply H; left; auto). rewrite IH by (intros x Hx; apply H; right; auto). reflexivity.
Qed.
