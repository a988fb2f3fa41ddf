(* C91: what reading a fragment returns. *)
From Coq Require Import List Arith NArith ZArith Bool Lia.
From Coq Require Import ZifyBool ZifyN ZifyNat.
From Verif Require Import Lib AMap RowIdsModel RowIdsSpec SerdeModel ReadParamsModel ReadParamsProofs TreeMapModel DeletionModel DeletionSpec DeletionProofs
  StreamModel StreamProofs FragReadModel.
Import ListNotations.
Local Open Scope nat_scope.

(* ---- what should be returned ---- *)
(* the value of column c in physical row o: in the first file that has the column, else null *)
Definition stored (g : rfrag) (c : Z) (o : nat) : value :=
  match find (fun f => memZ c (rf_fields f)) (rg_files g) with Some f => nth o (rf_col f c) None | None => None end.
Definition is_deleted (g : rfrag) (o : nat) : bool := match rg_dv g with Some d => memN (N.of_nat o) (dv_items d) | None => false end.
Definition live_offsets (g : rfrag) : list nat := filter (fun o => negb (is_deleted g o)) (seq 0 (rg_phys g)).
Definition want (g : rfrag) (proj : list Z) (k : rconf) (o : nat) : orow part :=
  {| o_val := map (fun c => (c, stored g c o)) proj;
     o_id := if k_id k then match rg_seq g with
               | Some q => match nth_error (seq_iter q) o with Some v => CVal v | None => CNull end
               | None => CVal (rg_id g * two32 + N.of_nat o)
               end else NoCol;
     o_addr := if k_addr k then CVal (rg_id g * two32 + N.of_nat o) else NoCol |}.
(* rows returned as asked: deleted rows dropped, or marked when deletions are to be nulls *)
Definition returns (r : outcome (list (orow part))) (k : rconf) (l : list (orow part)) : Prop :=
  exists rows, r = Ok rows /\ (k_null k = false -> rows = l) /\ (k_id k || k_addr k = true -> filter marked_live rows = l).
Definition rfrag_ok (g : rfrag) : Prop :=
  (rg_id g < two32)%N /\ (N.of_nat (rg_phys g) < two32)%N /\ Forall (fun f => rf_rows f = rg_phys g) (rg_files g) /\
  (forall d, rg_dv g = Some d -> dv_wf d /\ forall x, dv_has d x -> (x < N.of_nat (rg_phys g))%N) /\
  (forall q, rg_seq g = Some q -> seq_wf q /\ length (seq_iter q) = rg_phys g).
(* the column is in one of the fragment's files *)
Definition has_file (g : rfrag) (c : Z) : Prop := exists f, In f (rg_files g) /\ In c (rf_fields f).

(* ---- batches ---- *)
Lemma memZ_In : forall x l, memZ x l = true <-> In x l.
Proof. intros. unfold memZ. rewrite existsb_exists. split; [intros [y [J E]]; apply Z.eqb_eq in E; subst; auto|intros J; exists x; rewrite Z.eqb_refl; auto]. Qed.
Lemma memZ_false : forall x l, memZ x l = false <-> ~ In x l.
Proof. intros. rewrite <- memZ_In. destruct (memZ x l); split; intros; congruence. Qed.
Lemma chunks_f_map : forall {A B} (f : A -> B) bs fuel l, chunks_f fuel bs (map f l) = map (map f) (chunks_f fuel bs l).
Proof. intros A B f bs. induction fuel as [|n IH]; intros [|x l]; auto. cbn [map chunks_f]. rewrite <- IH. change (f x :: map f l) with (map f (x :: l)). rewrite firstn_map, skipn_map. reflexivity. Qed.
Lemma chunks_map : forall {A B} (f : A -> B) bs l, chunks bs (map f l) = map (map f) (chunks bs l).
Proof. intros. unfold chunks. rewrite map_length. apply chunks_f_map. Qed.
Lemma chunks_f_concat : forall {A} bs fuel (l : list A), 0 < bs -> length l <= fuel -> concat (chunks_f fuel bs l) = l.
Proof.
  intros A bs. induction fuel as [|n IH]; intros [|x l] Hb Hl; auto; [cbn in Hl; lia|]. cbn [chunks_f concat].
  rewrite IH; [apply firstn_skipn|exact Hb|]. rewrite skipn_length. cbn [length] in *. lia.
Qed.
Lemma chunks_concat : forall {A} bs (l : list A), 0 < bs -> concat (chunks bs l) = l.
Proof. intros. apply chunks_f_concat; auto. Qed.

(* ---- readers ---- *)
Definition row_of (r : reader) (o : nat) : part :=
  match r with FileR f fs => map (fun c => (c, nth o (rf_col f c) None)) fs | NullR fs _ => map (fun c => (c, None)) fs end.
Lemma null_rows_map : forall fs {A} (l : list A), null_rows fs (length l) = map (fun _ => map (fun c => (c, None)) fs) l.
Proof. intros fs A l. unfold null_rows. induction l as [|x l IH]; cbn; [reflexivity|f_equal; exact IH]. Qed.
Lemma rng_length : forall a b, length (rng a b) = b - a.
Proof. intros. apply seq_length. Qed.
Lemma range_tasks : forall r a b bs, read_range_tasks r a b bs = map (map (row_of r)) (chunks bs (rng a b)).
Proof. intros [f fs|fs n] a b bs; cbn [read_range_tasks]; [|rewrite <- (rng_length a b), null_rows_map]; rewrite <- chunks_map; reflexivity. Qed.
Lemma take_tasks : forall r idx bs, take_all_tasks r idx bs = map (map (row_of r)) (chunks bs idx).
Proof. intros [f fs|fs n] idx bs; cbn [take_all_tasks]; [|rewrite null_rows_map]; rewrite <- chunks_map; reflexivity. Qed.
Lemma all_tasks : forall r bs n, (match r with FileR f _ => rf_rows f | NullR _ m => m end) = n -> read_all_tasks r bs = map (map (row_of r)) (chunks bs (rng 0 n)).
Proof.
  intros [f fs|fs m] bs n <-; cbn [read_all_tasks]; [rewrite <- chunks_map; reflexivity|].
  replace (null_rows fs m) with (null_rows fs (length (rng 0 m))) by (rewrite rng_length; f_equal; lia). rewrite null_rows_map, <- chunks_map. reflexivity.
Qed.

(* ---- merging ---- *)
Definition merged_row (r0 : reader) (rs : list reader) (o : nat) : part := fold_left (fun acc r => merge_part acc (row_of r o)) rs (row_of r0 o).
Lemma merge_rows_map : forall {A} (f g : A -> part) l, merge_rows (map f l) (map g l) = Some (map (fun o => merge_part (f o) (g o)) l).
Proof. intros A f g. induction l as [|x l IH]; cbn; [reflexivity|]. rewrite IH. reflexivity. Qed.
Lemma emit_map : forall (rs : list reader) (f : nat -> part) l, emit (map f l) (map (fun r => map (row_of r) l) rs) = Some (map (fun o => fold_left (fun acc r => merge_part acc (row_of r o)) rs (f o)) l).
Proof.
  induction rs as [|r rs IH]; intros f l; cbn [map emit fold_left]; [reflexivity|]. rewrite merge_rows_map. cbn [obind]. apply (IH (fun o => merge_part (f o) (row_of r o))).
Qed.
Lemma heads_map : forall (rs : list reader) c cs, heads (map (fun r => map (map (row_of r)) (c :: cs)) rs) = Some (map (fun r => map (row_of r) c) rs, map (fun r => map (map (row_of r)) cs) rs).
Proof. induction rs as [|r rs IH]; intros c cs; [reflexivity|]. cbn [map heads]. cbn [map] in IH. rewrite IH. reflexivity. Qed.
Lemma merge_f_map : forall r0 rs cs, merge_f (length cs) (map (fun r => map (map (row_of r)) cs) (r0 :: rs)) = map (fun c => Some (map (merged_row r0 rs) c)) cs.
Proof.
  intros r0 rs. induction cs as [|c cs IH]; [reflexivity|]. cbn [length merge_f]. rewrite heads_map. cbn [map]. f_equal; [apply emit_map|]. exact IH.
Qed.
Lemma merge_map : forall r0 rs cs, merge_streams (map (fun r => map (map (row_of r)) cs) (r0 :: rs)) = map (fun c => Some (map (merged_row r0 rs) c)) cs.
Proof. intros r0 rs cs. unfold merge_streams. cbn [map]. rewrite map_length. apply merge_f_map. Qed.
Lemma sequence_some : forall {A} (l : list A), sequence_opt (map Some l) = Some l.
Proof. induction l as [|x l IH]; cbn; [reflexivity|]. rewrite IH. reflexivity. Qed.

(* ---- the columns of a merged row ---- *)
Definition look (c : Z) (p : part) : option (Z * value) := find (fun q => Z.eqb (fst q) c) p.
Lemma look_app : forall c a b, look c (a ++ b) = match look c a with Some x => Some x | None => look c b end.
Proof. intros c a b. induction a as [|x a IH]; [reflexivity|]. cbn. destruct (fst x =? c)%Z; [reflexivity|exact IH]. Qed.
Lemma look_None : forall c p, look c p = None <-> ~ In c (map fst p).
Proof.
  intros c p. induction p as [|x p IH]; cbn; [tauto|]. destruct (fst x =? c)%Z eqn:E.
  - apply Z.eqb_eq in E. split; [discriminate|]. intros H. exfalso. apply H. auto.
  - apply Z.eqb_neq in E. fold (look c p). rewrite IH. tauto.
Qed.
Lemma look_filter : forall c l p, ~ In c l -> look c (filter (fun q => negb (memZ (fst q) l)) p) = look c p.
Proof.
  intros c l p H. induction p as [|x p IH]; [reflexivity|]. cbn [filter]. destruct (memZ (fst x) l) eqn:E; cbn [negb]; unfold look in *; cbn [find].
  - rewrite IH. destruct (fst x =? c)%Z eqn:X; [|reflexivity]. apply Z.eqb_eq in X. apply memZ_In in E. congruence.
  - rewrite IH. reflexivity.
Qed.
Lemma look_merge : forall c a b, look c (merge_part a b) = match look c a with Some x => Some x | None => look c b end.
Proof. intros c a b. unfold merge_part. rewrite look_app. destruct (look c a) as [x|] eqn:E; [reflexivity|]. apply look_filter. apply look_None. exact E. Qed.
Lemma look_fold : forall c o rs acc, look c (fold_left (fun acc r => merge_part acc (row_of r o)) rs acc) =
  match look c acc with Some x => Some x | None => look c (flat_map (fun r => row_of r o) rs) end.
Proof.
  intros c o. induction rs as [|r rs IH]; intros acc; cbn [fold_left flat_map]; [destruct (look c acc); reflexivity|].
  rewrite IH, look_merge, look_app. destruct (look c acc); reflexivity.
Qed.
Lemma look_cols : forall c fs (v : Z -> value), look c (map (fun x => (x, v x)) fs) = if memZ c fs then Some (c, v c) else None.
Proof.
  intros c fs v. induction fs as [|x fs IH]; [reflexivity|]. unfold look in *. cbn. rewrite (Z.eqb_sym c x). destruct (x =? c)%Z eqn:E; [apply Z.eqb_eq in E; subst; reflexivity|exact IH].
Qed.
Lemma memZ_filter : forall c p l, memZ c (filter p l) = p c && memZ c l.
Proof.
  intros c p l. apply eq_true_iff_eq. rewrite andb_true_iff, !memZ_In, filter_In. tauto.
Qed.

(* the readers of the files *)
Definition file_readers (g : rfrag) (proj : list Z) : list reader :=
  flat_map (fun f => match open_reader f proj with Some r => [r] | None => [] end) (rg_files g).
Lemma look_files : forall g proj c o, In c proj ->
  look c (flat_map (fun r => row_of r o) (file_readers g proj)) = match find (fun f => memZ c (rf_fields f)) (rg_files g) with Some f => Some (c, nth o (rf_col f c) None) | None => None end.
Proof.
  intros g proj c o J. unfold file_readers. induction (rg_files g) as [|f l IH]; [reflexivity|]. cbn [flat_map find].
  unfold open_reader. destruct (filter (fun x => memZ x (rf_fields f)) proj) as [|y ys] eqn:E.
  - cbn [app]. destruct (memZ c (rf_fields f)) eqn:M; [|exact IH]. exfalso. assert (X : In c []) by (rewrite <- E; apply filter_In; auto). destruct X.
  - rewrite <- E. cbn [app flat_map row_of]. rewrite look_app, (look_cols c _ (fun x => nth o (rf_col f x) None)), memZ_filter.
    assert (X : memZ c proj = true) by (apply memZ_In; exact J). rewrite X, andb_true_r. destruct (memZ c (rf_fields f)); [reflexivity|exact IH].
Qed.
Lemma file_readers_fields : forall g proj c, In c (flat_map r_fields (file_readers g proj)) <-> In c proj /\ has_file g c.
Proof.
  intros g proj c. unfold file_readers, has_file. induction (rg_files g) as [|f l IH]; cbn [flat_map].
  - split; [intros []|intros [_ [f [[] _]]]].
  - rewrite flat_map_app, in_app_iff, IH. unfold open_reader.
    assert (X : In c (flat_map r_fields match filter (fun x => memZ x (rf_fields f)) proj with [] => [] | y :: ys => [FileR f (y :: ys)] end) <-> In c proj /\ In c (rf_fields f)).
    { destruct (filter (fun x => memZ x (rf_fields f)) proj) as [|y ys] eqn:E.
      - cbn. split; [intros []|]. intros [H1 H2]. assert (Y : In c []) by (rewrite <- E; apply filter_In; rewrite memZ_In; tauto). destruct Y.
      - cbn [flat_map r_fields]. rewrite app_nil_r, <- E, filter_In, memZ_In. tauto. }
    destruct (filter (fun x => memZ x (rf_fields f)) proj); rewrite X; cbn [In]; split.
    + intros [[A B]|[A [h [B C]]]]; split; eauto.
    + intros [A [h [[<-|B] C]]]; [left; auto|right; split; eauto].
    + intros [[A B]|[A [h [B C]]]]; split; eauto.
    + intros [A [h [[<-|B] C]]]; [left; auto|right; split; eauto].
Qed.
Lemma has_file_find : forall g c, has_file g c <-> find (fun f => memZ c (rf_fields f)) (rg_files g) <> None.
Proof.
  intros g c. unfold has_file. induction (rg_files g) as [|f l IH]; cbn [find].
  - split; [intros [f [[] _]]|congruence].
  - destruct (memZ c (rf_fields f)) eqn:E.
    + split; [discriminate|]. intros _. exists f. rewrite <- memZ_In. cbn. auto.
    + rewrite <- IH. split.
      * intros [h [[<-|B] C]]; [apply memZ_In in C; congruence|eauto].
      * intros [h [B C]]. exists h. cbn. auto.
Qed.
Lemma look_all : forall g proj c o, In c proj -> Forall (fun c => (0 <= c)%Z) proj ->
  look c (flat_map (fun r => row_of r o) (open_readers g proj)) = Some (c, stored g c o).
Proof.
  intros g proj c o J P. assert (C0 : (0 <= c)%Z) by (rewrite Forall_forall in P; auto). unfold open_readers. fold (file_readers g proj). cbv zeta.
  set (pres := filter (fun c0 => (0 <=? c0)%Z) (flat_map r_fields (file_readers g proj))).
  assert (LF := look_files g proj c o J). unfold stored. destruct (filter (fun c0 => negb (memZ c0 pres) && (0 <=? c0)%Z) proj) as [|m ms] eqn:E.
  - rewrite LF. destruct (find _ (rg_files g)) as [f|] eqn:F; [reflexivity|]. exfalso.
    assert (X : In c []). { rewrite <- E. apply filter_In. split; [exact J|]. apply andb_true_iff. split; [|lia]. apply negb_true_iff. apply memZ_false. unfold pres. rewrite filter_In, file_readers_fields, has_file_find. rewrite F. tauto. }
    destruct X.
  - rewrite flat_map_app, look_app, LF. destruct (find _ (rg_files g)) as [f|] eqn:F; [reflexivity|]. cbn [flat_map row_of]. rewrite app_nil_r, <- E, (look_cols c _ (fun _ => None)), memZ_filter.
    assert (X : memZ c proj = true) by (apply memZ_In; exact J). rewrite X, andb_true_r. assert (Y : memZ c pres = false). { apply memZ_false. unfold pres. rewrite filter_In, file_readers_fields, has_file_find, F. tauto. }
    rewrite Y. replace (0 <=? c)%Z with true by lia. reflexivity.
Qed.
Lemma open_nonempty : forall g proj, proj <> [] -> Forall (fun c => (0 <= c)%Z) proj -> exists r0 rs, open_readers g proj = r0 :: rs.
Proof.
  intros g [|c proj] H P; [congruence|]. destruct (open_readers g (c :: proj)) as [|r0 rs] eqn:E; [|eauto]. pose proof (look_all g (c :: proj) c 0 (or_introl eq_refl) P) as L. rewrite E in L. discriminate.
Qed.
Lemma project_merged : forall g proj r0 rs o, open_readers g proj = r0 :: rs -> Forall (fun c => (0 <= c)%Z) proj ->
  project_part proj (merged_row r0 rs o) = Some (map (fun c => (c, stored g c o)) proj).
Proof.
  intros g proj r0 rs o E P. unfold project_part.
  rewrite (map_ext_in _ (fun c => Some (c, stored g c o))).
  2:{ intros c J. fold (look c (merged_row r0 rs o)). unfold merged_row. rewrite look_fold. pose proof (look_all g proj c o J P) as L. rewrite E in L. cbn [flat_map] in L. rewrite look_app in L. rewrite L. reflexivity. }
  rewrite <- (map_map (fun c => (c, stored g c o)) Some). apply sequence_some.
Qed.

(* ---- one read ---- *)
Lemma wrap_no_id : forall {A} (batches : list (list A)) off frag c, c_with_id c = false ->
  wrap_batches batches off frag c = wrap_batches batches off frag {| c_params := c_params c; c_with_id := false; c_with_addr := c_with_addr c; c_dv := c_dv c; c_seq := None; c_null := c_null c |}.
Proof.
  intros A. induction batches as [|b t IH]; intros off frag c H; [reflexivity|]. cbn [wrap_batches]. rewrite <- IH by exact H.
  assert (E : apply_row_id_and_deletes b off frag c = apply_row_id_and_deletes b off frag {| c_params := c_params c; c_with_id := false; c_with_addr := c_with_addr c; c_dv := c_dv c; c_seq := None; c_null := c_null c |}).
  { unfold apply_row_id_and_deletes. cbn [c_params c_with_id c_with_addr c_dv c_seq c_null]. rewrite H. reflexivity. }
  rewrite E. reflexivity.
Qed.
Lemma expected_rows_map : forall {A} c frag ids (f : nat -> A) offs,
  expected_rows c frag ids offs (map f offs) = map (fun o => expected c frag ids (f o) o) (filter (fun o => negb (StreamProofs.deleted c o)) offs).
Proof.
  intros A c frag ids f offs. unfold expected_rows. induction offs as [|o l IH]; [reflexivity|]. cbn [map combine filter]. destruct (negb (StreamProofs.deleted c o)); cbn [map]; [f_equal|]; exact IH.
Qed.
Lemma project_rows : forall proj (rows : list (orow part)), (forall r, In r rows -> exists p, project_part proj (o_val r) = Some p) ->
  exists out, sequence_opt (map (project_row proj) rows) = Some out /\ Forall2 (fun r x => project_part proj (o_val r) = Some (o_val x) /\ o_id x = o_id r /\ o_addr x = o_addr r) rows out.
Proof.
  intros proj. induction rows as [|r rows IH]; intros H; [exists []; split; [reflexivity|constructor]|].
  destruct IH as [out [E F]]; [intros x J; apply H; right; exact J|]. destruct (H r (or_introl eq_refl)) as [p P]. cbn [map sequence_opt]. unfold project_row at 1. rewrite P. cbn [omap]. rewrite E.
  eexists. split; [reflexivity|]. constructor; [auto|exact F].
Qed.

Lemma orow_ext : forall {A} (x y : orow A), o_val x = o_val y -> o_id x = o_id y -> o_addr x = o_addr y -> x = y.
Proof. intros A [a b c] [a' b' c'] H1 H2 H3. cbn in *. congruence. Qed.
Lemma null_rows_vals : forall {A} (b : list A) off frag c rows, apply_row_id_and_deletes b off frag c = Ok rows -> forall r, In r rows -> In (o_val r) b.
Proof.
  intros A b off frag c rows H r J.
  assert (Z : forall ids addrs r, In r (zip_cells b ids addrs) -> In (o_val r) b).
  { intros ids addrs x X. unfold zip_cells in X. apply in_map_iff in X as [[i a] [<- X]]. cbn. apply in_combine_r in X. exact X. }
  unfold apply_row_id_and_deletes in H.
  repeat match type of H with
  | match ?x with _ => _ end = _ => destruct x eqn:?; try discriminate
  end; injection H as <-.
  - unfold deletions_as_nulls in J. destruct (forallb negb l) eqn:?; [destruct J|]. apply in_map_iff in J as [[x k] [<- J]]. apply in_combine_l in J. destruct k; cbn; eapply Z; exact J.
  - unfold filter_mask in J. apply in_map_iff in J as [[x k] [<- J]]. apply filter_In in J as [J _]. apply in_combine_l in J. cbn. eapply Z; exact J.
  - eapply Z; exact J.
Qed.
Lemma wrap_vals : forall {A} (bs : list (list A)) off frag c rows, wrap_batches bs off frag c = Ok rows -> forall r, In r rows -> In (o_val r) (concat bs).
Proof.
  intros A. induction bs as [|b t IH]; intros off frag c rows H r J; cbn [wrap_batches] in H; [injection H as <-; destruct J|].
  destruct (apply_row_id_and_deletes b off frag c) as [r1| |] eqn:E1; try discriminate. destruct (wrap_batches t (off + length b) frag c) as [r2| |] eqn:E2; try discriminate. injection H as <-.
  cbn [concat]. apply in_app_iff in J. apply in_app_iff. destruct J as [J|J]; [left; eapply null_rows_vals; eauto|right; eapply IH; eauto].
Qed.

Lemma merged_spec : forall g proj bs offs tasks, Forall (fun c => (0 <= c)%Z) proj -> proj <> [] ->
  (forall r, In r (open_readers g proj) -> tasks r = map (map (row_of r)) (chunks bs offs)) ->
  exists f, sequence_opt (merge_streams (map tasks (open_readers g proj))) = Some (map (map f) (chunks bs offs)) /\
    forall o, project_part proj (f o) = Some (map (fun c => (c, stored g c o)) proj).
Proof.
  intros g proj bs offs tasks P NE HT. destruct (open_nonempty g proj NE P) as [r0 [rs E]]. exists (merged_row r0 rs). split; [|intros o; eapply project_merged; eauto].
  rewrite E. rewrite (map_ext_in tasks (fun r => map (map (row_of r)) (chunks bs offs))) by (intros r J; apply HT; rewrite E; exact J).
  rewrite merge_map. rewrite <- (map_map (map (merged_row r0 rs)) Some). apply sequence_some.
Qed.

(* any request whose readers deliver the rows of the requested offsets *)
Lemma read_impl_spec : forall g proj k p bs tasks, rfrag_ok g -> Forall (fun c => (0 <= c)%Z) proj -> 0 < bs ->
  valid_given_len p (rg_phys g) = true -> (forall a b, p = PRange a b -> a <= b) ->
  (rg_seq g = None \/ k_id k = false \/ is_prefix p) ->
  (forall r, In r (open_readers g proj) -> tasks r = map (map (row_of r)) (chunks bs (to_offsets_total p (rg_phys g)))) ->
  returns (new_read_impl g proj k p bs tasks) k (map (want g proj k) (filter (fun o => negb (is_deleted g o)) (to_offsets_total p (rg_phys g)))).
Proof.
  intros g proj k p bs tasks [Hid [Hph [_ [Hdv Hsq]]]] P Hbs V Hr Hseq HT. unfold returns, new_read_impl. rewrite V. cbn [negb].
  set (offs := to_offsets_total p (rg_phys g)) in *. set (cs := chunks bs offs) in *.
  assert (M : exists f : nat -> part, (match proj with [] => Some (chunks bs (repeat [] (length offs))) | _ => sequence_opt (merge_streams (map tasks (open_readers g proj))) end) = Some (map (map f) cs) /\
            forall o, project_part proj (f o) = Some (map (fun c => (c, stored g c o)) proj)).
  { destruct proj as [|c0 proj'] eqn:EP.
    - exists (fun _ => []). split; [|reflexivity]. f_equal. unfold cs. rewrite <- chunks_map. f_equal. clear. induction offs; cbn; [reflexivity|f_equal; auto].
    - rewrite <- EP in *. apply merged_spec; auto. subst. discriminate. }
  destruct M as [f [M PF]]. rewrite M. clear M.
  assert (CC : concat (map (map f) cs) = map f offs) by (rewrite <- concat_map; unfold cs; rewrite chunks_concat by exact Hbs; reflexivity).
  set (c := {| c_params := p; c_with_id := k_id k; c_with_addr := k_addr k; c_dv := rg_dv g; c_seq := rg_seq g; c_null := k_null k |}).
  set (exp := map (fun o => {| o_val := f o; o_id := o_id (want g proj k o); o_addr := o_addr (want g proj k o) |}) (filter (fun o => negb (is_deleted g o)) offs)).
  assert (DEL : forall o, StreamProofs.deleted c o = is_deleted g o).
  { intros o. unfold StreamProofs.deleted, is_deleted. cbn [c c_dv]. destruct (rg_dv g) as [d|]; [apply contains_memN|reflexivity]. }
  assert (IN : forall o, In o offs -> o < rg_phys g).
  { unfold offs. intros o J. destruct p as [a b| |e|s|l]; cbn [to_offsets_total valid_given_len] in *.
    - unfold rng in J. apply in_seq in J. apply andb_true_iff in V as [_ V]. apply Nat.leb_le in V. lia.
    - unfold rng in J. apply in_seq in J. lia.
    - unfold rng in J. apply in_seq in J. apply Nat.leb_le in V. lia.
    - unfold rng in J. apply in_seq in J. lia.
    - rewrite forallb_forall in V. apply V in J. apply Nat.ltb_lt in J. exact J. }
  assert (W : exists rows, wrap_batches (map (map f) cs) 0 (rg_id g) c = Ok rows /\ (k_null k = false -> rows = exp) /\ (k_id k || k_addr k = true -> filter marked_live rows = exp)).
  { assert (CASE : (k_id k = false \/ (rg_seq g = None)) \/ (exists q, rg_seq g = Some q /\ k_id k = true /\ is_prefix p)).
    { destruct (k_id k); [|auto]. destruct (rg_seq g) as [q|]; [|auto]. destruct Hseq as [X|[X|X]]; try discriminate. right. exists q. auto. }
    destruct CASE as [CASE|[q [Q [KI PR]]]].
    - set (c' := {| c_params := p; c_with_id := k_id k; c_with_addr := k_addr k; c_dv := rg_dv g; c_seq := None; c_null := k_null k |}).
      assert (EW : wrap_batches (map (map f) cs) 0 (rg_id g) c = wrap_batches (map (map f) cs) 0 (rg_id g) c').
      { destruct CASE as [K|Q]; [|unfold c, c'; rewrite Q; reflexivity]. rewrite (wrap_no_id _ _ _ c) by exact K. unfold c, c'. cbn [c_params c_with_id c_with_addr c_dv c_seq c_null]. rewrite K. reflexivity. }
      rewrite EW. destruct (read_by_address (map (map f) cs) (rg_id g) c' (rg_phys g)) as [rows [R1 [R2 R3]]]; auto.
      + rewrite CC, map_length. reflexivity.
      + cbn [c' c_params] in R2, R3. fold offs in R2, R3. rewrite CC, expected_rows_map in R2, R3.
        assert (EE : map (fun o => expected c' (rg_id g) None (f o) o) (filter (fun o => negb (StreamProofs.deleted c' o)) offs) = exp).
        { unfold exp. rewrite (filter_ext (fun o => negb (StreamProofs.deleted c' o)) (fun o => negb (is_deleted g o))) by (intros o; f_equal; apply DEL).
          apply map_ext. intros o. unfold expected, want. cbn. f_equal. destruct CASE as [-> | ->]; reflexivity. }
        rewrite EE in R2, R3. exists rows. split; [exact R1|]. split; [exact R2|exact R3].
    - destruct (Hsq q Q) as [WQ LQ]. destruct (read_stable_prefix (map (map f) cs) (rg_id g) c (rg_phys g) q) as [rows [R1 [R2 R3]]]; auto.
      + rewrite CC, map_length. reflexivity.
      + cbn [c c_params] in R2, R3. fold offs in R2, R3. rewrite CC, expected_rows_map in R2, R3.
        assert (EE : map (fun o => expected c (rg_id g) (Some (seq_iter q)) (f o) o) (filter (fun o => negb (StreamProofs.deleted c o)) offs) = exp).
        { unfold exp. rewrite (filter_ext (fun o => negb (StreamProofs.deleted c o)) (fun o => negb (is_deleted g o))) by (intros o; f_equal; apply DEL).
          apply map_ext. intros o. unfold expected, want. cbn. rewrite Q. reflexivity. }
        rewrite EE in R2, R3. exists rows. split; [exact R1|]. split; [exact R2|exact R3]. }
  destruct W as [rows [W1 [W2 W3]]]. rewrite W1.
  destruct (project_rows proj rows) as [out [E F]].
  { intros r J. apply (wrap_vals _ _ _ _ _ W1) in J. rewrite CC in J. apply in_map_iff in J as [o [<- _]]. eexists. apply PF. }
  rewrite E. exists out. split; [reflexivity|].
  assert (G : forall l out, Forall2 (fun r x => project_part proj (o_val r) = Some (o_val x) /\ o_id x = o_id r /\ o_addr x = o_addr r)
      (map (fun o => {| o_val := f o; o_id := o_id (want g proj k o); o_addr := o_addr (want g proj k o) |}) l) out -> out = map (want g proj k) l).
  { clear - PF. induction l as [|o l IH]; intros out H; inversion H as [|? x ? ? [A [B C]] Hf]; subst; [reflexivity|]. cbn [map]. f_equal; [|apply IH; exact Hf].
    apply orow_ext; cbn in *; try congruence. rewrite PF in A. congruence. }
  split.
  - intros K. apply G. unfold exp in W2. rewrite <- W2 by exact K. exact F.
  - intros K. apply G. unfold exp in W3. rewrite <- W3 by exact K. clear - F. induction F as [|r x rows out [A [B C]] F IH]; [constructor|].
    cbn [filter]. unfold marked_live. rewrite B, C. destruct (o_id r) eqn:Eo, (o_addr r) eqn:Ea; try exact IH; (constructor; [rewrite B, C; auto|exact IH]).
Qed.

(* ---- reading a range of the surviving rows ---- *)
Lemma nrange_seq : forall n a, nrange (N.of_nat a) n = map N.of_nat (seq a n).
Proof.
  intros n. induction n as [|n IH]; intros a; [reflexivity|]. cbn [seq map]. rewrite <- IH. cbn [nrange]. f_equal. f_equal. lia.
Qed.
Lemma filter_map' : forall {A B} (f : A -> B) p l, filter p (map f l) = map f (filter (fun x => p (f x)) l).
Proof. intros A B f p. induction l as [|x l IH]; [reflexivity|]. cbn. destruct (p (f x)); cbn; [f_equal|]; exact IH. Qed.
Lemma alive_live : forall g d, rg_dv g = Some d -> alive (dv_items d) (N.of_nat (rg_phys g)) = map N.of_nat (live_offsets g).
Proof.
  intros g d E. unfold alive, live_offsets, is_deleted. rewrite E. replace (nrange 0 (N.to_nat (N.of_nat (rg_phys g)))) with (map N.of_nat (seq 0 (rg_phys g))).
  - rewrite filter_map'. reflexivity.
  - rewrite <- nrange_seq. f_equal. lia.
Qed.
Lemma live_none : forall g, rg_dv g = None -> live_offsets g = seq 0 (rg_phys g).
Proof. intros g E. unfold live_offsets, is_deleted. rewrite E. apply filter_all_true. auto. Qed.
Lemma firstn_seq : forall n a k, firstn k (seq a n) = seq a (Nat.min k n).
Proof. induction n as [|n IH]; intros a [|k]; try reflexivity. cbn. f_equal. apply IH. Qed.
Lemma skipn_seq : forall k n a, skipn k (seq a n) = seq (a + k) (n - k).
Proof. induction k as [|k IH]; intros [|n] a; cbn; rewrite ?Nat.add_0_r; try reflexivity. rewrite IH. f_equal; lia. Qed.
Lemma live_offsets_lt : forall g o, In o (live_offsets g) -> o < rg_phys g.
Proof. intros g o J. apply filter_In in J as [J _]. apply in_seq in J. lia. Qed.

Theorem read_range_exact : forall g proj k a b bs, rfrag_ok g -> Forall (fun c => (0 <= c)%Z) proj -> 0 < bs -> a < b -> b <= length (live_offsets g) ->
  (rg_seq g = None \/ k_id k = false) ->
  returns (read_range g proj k a b bs) k (map (want g proj k) (firstn (b - a) (skipn a (live_offsets g)))).
Proof.
  intros g proj k a b bs O P Hbs Hab Hb Q. assert (OK := O). destruct O as [_ [Hph [_ [Hdv _]]]].
  assert (R : forall s e, s < e -> e <= rg_phys g -> filter (fun o => negb (is_deleted g o)) (rng s e) = firstn (b - a) (skipn a (live_offsets g)) ->
     returns (new_read_impl g proj k (PRange s e) bs (fun r => read_range_tasks r s e bs)) k (map (want g proj k) (firstn (b - a) (skipn a (live_offsets g))))).
  { intros s e Hs He F. rewrite <- F. apply (read_impl_spec g proj k (PRange s e) bs (fun r => read_range_tasks r s e bs)); auto.
    - cbn [valid_given_len]. apply andb_true_iff. rewrite Nat.ltb_lt, Nat.leb_le. lia.
    - intros x y E. injection E as <- <-. lia.
    - destruct Q; auto.
    - intros r _. apply range_tasks. }
  unfold read_range. destruct (rg_dv g) as [d|] eqn:E.
  - destruct (Hdv d eq_refl) as [W B]. pose proof (alive_live g d E) as AL.
    assert (LL : length (alive (dv_items d) (N.of_nat (rg_phys g))) = length (live_offsets g)) by (rewrite AL, map_length; reflexivity).
    pose proof (patch_range_spec d (N.of_nat (rg_phys g)) (N.of_nat a) (N.of_nat b) W B ltac:(lia) ltac:(lia)) as PR.
    destruct (patch_range (dv_sorted_iter d) (N.of_nat a) (N.of_nat b)) as [s e]. destruct PR as [P1 P2].
    assert (F : filter (fun o => negb (is_deleted g o)) (rng (N.to_nat s) (N.to_nat e)) = firstn (b - a) (skipn a (live_offsets g))).
    { assert (X : map N.of_nat (filter (fun o => negb (is_deleted g o)) (rng (N.to_nat s) (N.to_nat e))) = map N.of_nat (firstn (b - a) (skipn a (live_offsets g)))).
      { replace (N.to_nat (N.of_nat b - N.of_nat a)) with (b - a) in P2 by lia. rewrite Nat2N.id, AL in P2. rewrite <- firstn_map, <- skipn_map, <- P2. unfold rng, is_deleted. rewrite E.
        replace (N.to_nat (e - s)) with (N.to_nat e - N.to_nat s) by lia. replace (nrange s (N.to_nat e - N.to_nat s)) with (map N.of_nat (seq (N.to_nat s) (N.to_nat e - N.to_nat s))) by (rewrite <- nrange_seq; f_equal; lia).
        rewrite filter_map'. f_equal. apply filter_ext. intros o. rewrite contains_memN. reflexivity. }
      apply (f_equal (map N.to_nat)) in X. rewrite !map_map in X. rewrite !(map_ext (fun x => N.to_nat (N.of_nat x)) (fun x => x)) in X by (intros; lia). rewrite !map_id in X. exact X. }
    apply R; [|lia|exact F].
    assert (LEN : length (firstn (b - a) (skipn a (live_offsets g))) = b - a) by (rewrite firstn_length, skipn_length; lia).
    rewrite <- F in LEN. destruct (rng (N.to_nat s) (N.to_nat e)) eqn:Z; [cbn in LEN; lia|]. apply (f_equal (@length nat)) in Z. unfold rng in Z. rewrite seq_length in Z. cbn in Z. lia.
  - assert (LV := live_none g E). apply R; [exact Hab|rewrite LV, seq_length in Hb; exact Hb|]. rewrite LV in *. rewrite seq_length in Hb. rewrite filter_all_true by (intros; unfold is_deleted; rewrite E; reflexivity).
    rewrite skipn_seq, firstn_seq. unfold rng. f_equal; lia.
Qed.

(* ---- reading everything ---- *)
Lemma count_live : forall g, rfrag_ok g -> count_rows g = length (live_offsets g).
Proof.
  intros g [_ [_ [_ [Hdv _]]]]. unfold count_rows. destruct (rg_dv g) as [d|] eqn:E.
  - destruct (Hdv d eq_refl) as [W B]. unfold live_offsets, is_deleted. rewrite E. unfold dv_len.
    pose proof (filter_length_split (fun o => negb (memN (N.of_nat o) (dv_items d))) (seq 0 (rg_phys g))) as SP. rewrite seq_length in SP.
    assert (L : length (filter (fun o => negb (negb (memN (N.of_nat o) (dv_items d)))) (seq 0 (rg_phys g))) = length (dv_items d)).
    { rewrite <- (map_length N.of_nat). apply Permutation.Permutation_length. apply Permutation.NoDup_Permutation.
      - apply FinFun.Injective_map_NoDup; [intros x y; lia|]. apply NoDup_filter, seq_NoDup.
      - apply wf_NoDup. exact W.
      - intros x. rewrite in_map_iff. split.
        + intros [o [<- J]]. apply filter_In in J as [_ J]. rewrite negb_involutive in J. apply memN_In. exact J.
        + intros J. exists (N.to_nat x). split; [lia|]. apply filter_In. specialize (B x J). rewrite in_seq, negb_involutive. split; [lia|]. apply memN_In. rewrite N2Nat.id. exact J. }
    lia.
  - rewrite live_none by exact E. rewrite seq_length. lia.
Qed.
Lemma no_deletions : forall g, rfrag_ok g -> (forall o, o < rg_phys g -> is_deleted g o = false) -> count_rows g = rg_phys g.
Proof. intros g O H. rewrite count_live by exact O. unfold live_offsets. rewrite filter_all_true; [apply seq_length|]. intros o J. apply in_seq in J. rewrite H by lia. reflexivity. Qed.
Lemma readers_are : forall g proj r, In r (open_readers g proj) -> (exists f fs, In f (rg_files g) /\ r = FileR f fs) \/ exists fs, r = NullR fs (count_rows g) /\ exists c, In c proj /\ ~ has_file g c.
Proof.
  intros g proj r J. unfold open_readers in J. fold (file_readers g proj) in J. cbv zeta in J.
  assert (FR : forall r, In r (file_readers g proj) -> exists f fs, In f (rg_files g) /\ r = FileR f fs).
  { intros x X. unfold file_readers in X. apply in_flat_map in X as [f [F X]]. unfold open_reader in X. destruct (filter (fun c => memZ c (rf_fields f)) proj) as [|y ys]; [destruct X|]. destruct X as [<-|[]]. eauto. }
  destruct (filter (fun c => negb (memZ c (filter (fun c0 => (0 <=? c0)%Z) (flat_map r_fields (file_readers g proj)))) && (0 <=? c)%Z) proj) as [|m ms] eqn:E; [left; auto|].
  apply in_app_iff in J as [J|[<-|[]]]; [left; auto|right]. exists (m :: ms). split; [reflexivity|].
  assert (X : In m (m :: ms)) by (left; reflexivity). rewrite <- E in X. apply filter_In in X as [X Y]. apply andb_true_iff in Y as [Y Z]. exists m. split; [exact X|].
  apply negb_true_iff in Y. apply memZ_false in Y. rewrite filter_In, file_readers_fields in Y. tauto.
Qed.

Theorem read_all_exact : forall g proj k bs, rfrag_ok g -> Forall (fun c => (0 <= c)%Z) proj -> 0 < bs ->
  (Forall (has_file g) proj \/ forall o, o < rg_phys g -> is_deleted g o = false) ->
  returns (read_all g proj k bs) k (map (want g proj k) (live_offsets g)).
Proof.
  intros g proj k bs O P Hbs H. unfold read_all. assert (OK := O). destruct O as [_ [_ [Hf _]]].
  replace (live_offsets g) with (filter (fun o => negb (is_deleted g o)) (to_offsets_total PFull (rg_phys g))) by (cbn; unfold rng; rewrite Nat.sub_0_r; reflexivity).
  apply read_impl_spec; auto; [discriminate|right; right; exact Logic.I|].
  intros r J. cbn [to_offsets_total]. apply all_tasks. destruct (readers_are g proj r J) as [[f [fs [F ->]]]|[fs [-> [c [C N]]]]].
  - rewrite Forall_forall in Hf. exact (Hf f F).
  - destruct H as [H|H]; [rewrite Forall_forall in H; exfalso; exact (N (H c C))|]. apply no_deletions; assumption.
Qed.

(* ---- taking rows ---- *)
Theorem take_exact : forall g proj k idx bs, rfrag_ok g -> Forall (fun c => (0 <= c)%Z) proj -> 0 < bs -> Forall (fun i => i < rg_phys g) idx ->
  (rg_seq g = None \/ k_id k = false) ->
  returns (take g proj k idx bs) k (map (want g proj k) (filter (fun o => negb (is_deleted g o)) idx)).
Proof.
  intros g proj k idx bs O P Hbs H Q. unfold take. apply (read_impl_spec g proj k (PIdx idx)); auto.
  - cbn. apply forallb_forall. rewrite Forall_forall in H. intros x J. apply Nat.ltb_lt. auto.
  - discriminate.
  - destruct Q; auto.
  - intros r _. apply take_tasks.
Qed.
Theorem take_range_exact : forall g proj k a b bs, rfrag_ok g -> Forall (fun c => (0 <= c)%Z) proj -> 0 < bs -> a < b -> b <= rg_phys g ->
  (rg_seq g = None \/ k_id k = false) ->
  returns (take_range g proj k a b bs) k (map (want g proj k) (filter (fun o => negb (is_deleted g o)) (seq a (b - a)))).
Proof.
  intros g proj k a b bs O P Hbs Hab Hb Q. unfold take_range. apply (read_impl_spec g proj k (PRange a b)); auto.
  - cbn [valid_given_len]. apply andb_true_iff. rewrite Nat.ltb_lt, Nat.leb_le. lia.
  - intros x y E. injection E as <- <-. lia.
  - destruct Q; auto.
  - intros r _. apply range_tasks.
Qed.

(* ---- the whole fragment, when some column is in no file and rows are deleted ---- *)
(* only such columns: the surviving rows among the first (number of surviving rows) rows *)
Lemma wrap_to : forall {A} (batches : list (list A)) n off frag i ad d q nl, off + length (concat batches) <= n ->
  wrap_batches batches off frag {| c_params := PFull; c_with_id := i; c_with_addr := ad; c_dv := d; c_seq := q; c_null := nl |} =
  wrap_batches batches off frag {| c_params := PTo n; c_with_id := i; c_with_addr := ad; c_dv := d; c_seq := q; c_null := nl |}.
Proof.
  intros A. induction batches as [|b t IH]; intros n off frag i ad d q nl H; [reflexivity|]. cbn [concat] in H. rewrite app_length in H. cbn [wrap_batches]. rewrite (IH n) by lia.
  assert (E : forall p, p = PFull \/ p = PTo n -> p_slice p off (length b) = Some (PRange off (off + length b))).
  { intros p [-> | ->]; cbn [p_slice]; [reflexivity|]. replace (n <? off + length b) with false; [reflexivity|]. symmetry. apply Nat.ltb_ge. lia. }
  assert (X : apply_row_id_and_deletes b off frag {| c_params := PFull; c_with_id := i; c_with_addr := ad; c_dv := d; c_seq := q; c_null := nl |} =
              apply_row_id_and_deletes b off frag {| c_params := PTo n; c_with_id := i; c_with_addr := ad; c_dv := d; c_seq := q; c_null := nl |}).
  { unfold apply_row_id_and_deletes. cbn [c_params c_with_id c_with_addr c_dv c_seq c_null]. rewrite !E by auto. reflexivity. }
  rewrite X. reflexivity.
Qed.
Theorem read_all_nulls : forall g proj k bs, rfrag_ok g -> Forall (fun c => (0 <= c)%Z) proj -> 0 < bs -> proj <> [] -> (forall c, In c proj -> ~ has_file g c) ->
  returns (read_all g proj k bs) k (map (want g proj k) (filter (fun o => o <? length (live_offsets g)) (live_offsets g))).
Proof.
  intros g proj k bs O P Hbs NE NF. set (n := length (live_offsets g)).
  assert (LE : n <= rg_phys g) by (unfold n; rewrite <- count_live by exact O; unfold count_rows; lia).
  assert (TA : forall r, In r (open_readers g proj) -> read_all_tasks r bs = map (map (row_of r)) (chunks bs (rng 0 n))).
  { intros r J. apply all_tasks. destruct (readers_are g proj r J) as [[f [fs [F ->]]]|[fs [-> _]]]; [|apply count_live; exact O]. exfalso.
    unfold open_readers in J. fold (file_readers g proj) in J. cbv zeta in J.
    assert (FE : file_readers g proj = []).
    { unfold file_readers. clear - NF. assert (H : forall f, In f (rg_files g) -> open_reader f proj = None).
      { intros f F. unfold open_reader. destruct (filter (fun c => memZ c (rf_fields f)) proj) as [|y ys] eqn:E; [reflexivity|]. exfalso. assert (X : In y (y :: ys)) by (left; reflexivity). rewrite <- E in X. apply filter_In in X as [X Y]. apply memZ_In in Y. apply (NF y X). exists f. auto. }
      induction (rg_files g) as [|f l IH]; [reflexivity|]. cbn [flat_map]. rewrite H by (left; reflexivity). apply IH. intros h J. apply H. right. exact J. }
    rewrite FE in J. cbn [flat_map filter app] in J. destruct (filter _ proj) as [|y ys]; [destruct J|]. destruct J as [J|[]]. discriminate. }
  assert (R : returns (new_read_impl g proj k (PTo n) bs (fun r => read_all_tasks r bs)) k (map (want g proj k) (filter (fun o => negb (is_deleted g o)) (to_offsets_total (PTo n) (rg_phys g))))).
  { apply read_impl_spec; auto; [cbn; apply Nat.leb_le; exact LE|discriminate|right; right; exact Logic.I]. }
  assert (EQ : read_all g proj k bs = new_read_impl g proj k (PTo n) bs (fun r => read_all_tasks r bs)).
  { unfold read_all, new_read_impl. cbn [valid_given_len]. replace (n <=? rg_phys g) with true by (symmetry; apply Nat.leb_le; exact LE). cbn [negb].
    destruct (merged_spec g proj bs (rng 0 n) (fun r => read_all_tasks r bs) P NE TA) as [f [M _]].
    destruct proj as [|c0 proj'] eqn:EP; [congruence|]. rewrite <- EP in *. rewrite M. rewrite (wrap_to _ n); [reflexivity|].
    rewrite <- concat_map, chunks_concat by exact Hbs. rewrite map_length, rng_length. lia. }
  rewrite EQ. replace (filter (fun o => o <? n) (live_offsets g)) with (filter (fun o => negb (is_deleted g o)) (to_offsets_total (PTo n) (rg_phys g))); [exact R|].
  cbn [to_offsets_total]. unfold live_offsets, rng. rewrite Nat.sub_0_r.
  replace (rg_phys g) with (n + (rg_phys g - n)) by lia. rewrite seq_app, !filter_app.
  rewrite (filter_all_true (fun o => o <? n) (filter (fun o => negb (is_deleted g o)) (seq 0 n))) by (intros o J; apply filter_In in J as [J _]; apply in_seq in J; apply Nat.ltb_lt; lia).
  rewrite (filter_all_false (fun o => o <? n) (filter (fun o => negb (is_deleted g o)) (seq (0 + n) (rg_phys g - n)))) by (intros o J; apply filter_In in J as [J _]; apply in_seq in J; apply Nat.ltb_ge; lia).
  rewrite app_nil_r. reflexivity.
Qed.

(* ---- counterexamples and instances ---- *)
Definition ex_file : rfile := {| rf_fields := [0]%Z; rf_rows := 4; rf_col := fun _ => [Some 10; Some 11; Some 12; Some 13]%Z |}.
Definition ex_frag (d : option dv) : rfrag := {| rg_id := 3; rg_phys := 4; rg_files := [ex_file]; rg_dv := d; rg_seq := None |}.
Definition plain : rconf := {| k_id := false; k_addr := false; k_null := false |}.
Definition addrs : rconf := {| k_id := false; k_addr := true; k_null := false |}.
Lemma ex_ok : forall d, (forall x, d = Some x -> dv_wf x /\ forall y, dv_has x y -> (y < 4)%N) -> rfrag_ok (ex_frag d).
Proof. intros d H. split; [reflexivity|]. split; [reflexivity|]. split; [repeat constructor|]. split; [exact H|discriminate]. Qed.
Lemma ex_del : forall l, (forall x, In x l -> (x < 4)%N) -> NoDup l -> rfrag_ok (ex_frag (Some (DSet l))).
Proof. intros l H D. apply ex_ok. intros x E. injection E as <-. split; [exact D|]. exact H. Qed.

(* column 1 is in no file; row 0 is deleted; a scan of column 1 loses the last row *)
Theorem read_all_loses_rows_refuted : exists g proj k bs out, rfrag_ok g /\ Forall (fun c => (0 <= c)%Z) proj /\ 0 < bs /\
  read_all g proj k bs = Ok out /\ length out < length (live_offsets g) /\ out <> map (want g proj k) (live_offsets g).
Proof.
  exists (ex_frag (Some (DSet [0%N]))), [1%Z], addrs, 8. eexists. split; [apply ex_del; [intros x [<-|[]]; reflexivity|repeat constructor; auto]|]. split; [repeat constructor; lia|]. split; [lia|].
  split; [vm_compute; reflexivity|]. split; [vm_compute; lia|vm_compute; discriminate].
Qed.
(* with a stored column besides it the scan fails *)
Theorem read_all_fails_refuted : exists g proj k bs, rfrag_ok g /\ Forall (fun c => (0 <= c)%Z) proj /\ 0 < bs /\ read_all g proj k bs = Err.
Proof.
  exists (ex_frag (Some (DSet [0%N]))), [0; 1]%Z, addrs, 8. split; [apply ex_del; [intros x [<-|[]]; reflexivity|repeat constructor; auto]|]. split; [repeat constructor; lia|]. split; [lia|]. vm_compute. reflexivity.
Qed.
(* or silently stops early when the batch sizes happen to agree *)
Theorem read_all_truncated_refuted : exists g proj k bs out, rfrag_ok g /\ Forall (fun c => (0 <= c)%Z) proj /\ 0 < bs /\
  read_all g proj k bs = Ok out /\ out = [] /\ length (live_offsets g) = 2.
Proof.
  exists (ex_frag (Some (DSet [1; 0]%N))), [0; 1]%Z, addrs, 2. eexists. split; [apply ex_del; [intros x [<-|[<-|[]]]; reflexivity|repeat constructor; cbn; intuition discriminate]|]. split; [repeat constructor; lia|]. split; [lia|].
  split; [vm_compute; reflexivity|]. split; reflexivity.
Qed.
(* with stable row ids a range read returns the ids of other rows *)
Theorem read_range_ids_refuted : exists g proj k out, rfrag_ok g /\ k_id k = true /\ read_range g proj k 1 2 8 = Ok out /\
  out <> map (want g proj k) (firstn 1 (skipn 1 (live_offsets g))).
Proof.
  exists {| rg_id := 3; rg_phys := 4; rg_files := [ex_file]; rg_dv := None; rg_seq := Some [Range 100 104] |}, [0]%Z, {| k_id := true; k_addr := false; k_null := false |}.
  eexists. split; [|split; [reflexivity|split; [vm_compute; reflexivity|vm_compute; discriminate]]].
  split; [reflexivity|]. split; [reflexivity|]. split; [repeat constructor|]. split; [discriminate|]. intros q E. injection E as <-. split; [constructor; [vm_compute; intuition congruence|constructor]|reflexivity].
Qed.

Example read_range_instance : rfrag_ok (ex_frag (Some (DBitmap [0; 2]%N))) /\
  read_range (ex_frag (Some (DBitmap [0; 2]%N))) [1; 0]%Z addrs 1 2 2 = Ok [ {| o_val := [(1, None); (0, Some 13)]%Z; o_id := NoCol; o_addr := CVal (3 * two32 + 3) |} ].
Proof.
  split; [|vm_compute; reflexivity]. apply ex_ok. intros x E. injection E as <-. split; [cbn; intuition lia|]. intros y [<-|[<-|[]]]; reflexivity.
Qed.
Example read_all_instance : read_all (ex_frag (Some (DBitmap [0; 2]%N))) [0]%Z plain 3 = Ok (map (want (ex_frag (Some (DBitmap [0; 2]%N))) [0]%Z plain) [1; 3]) /\
  Forall (has_file (ex_frag (Some (DBitmap [0; 2]%N)))) [0]%Z /\ map o_val (map (want (ex_frag None) [0]%Z plain) [1; 3]) = [[(0, Some 11)]; [(0, Some 13)]]%Z.
Proof. split; [vm_compute; reflexivity|]. split; [|reflexivity]. repeat constructor. exists ex_file. split; [left; reflexivity|left; reflexivity]. Qed.
Example take_instance : take (ex_frag (Some (DBitmap [0; 2]%N))) [0; 1]%Z addrs [3; 2; 1] 2 = Ok (map (want (ex_frag None) [0; 1]%Z addrs) [3; 1]).
Proof. vm_compute. reflexivity. Qed.
