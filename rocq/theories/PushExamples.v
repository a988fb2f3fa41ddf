(* A concrete predicate language with a sound simplifier, cases that meet the hypotheses, and the cases where rows are lost. *)
From Coq Require Import List Arith NArith ZArith Bool Lia.
From Coq Require Import ZifyBool ZifyN ZifyNat.
From Verif Require Import Lib AMap RowIdsModel RowIdsSpec SeqProofs SerdeModel ReadParamsModel ReadParamsProofs TreeMapModel TreeMapProofs
  DeletionModel DeletionSpec DeletionProofs StreamModel StreamProofs StatsModel StatsProofs StatsBytes StatsCollect PushModel PushProofs PushScan.
Import ListNotations.
Local Open Scope nat_scope.

(* ---- comparisons, null tests and conjunctions ---- *)
Inductive pexpr := PLit (b : option bool) | PGt (f : nat) (v : value) | PNull (f : nat) | PAnd (a b : pexpr).
Definition and3 (a b : option bool) : option bool :=
  match a, b with
  | Some false, _ | _, Some false => Some false
  | Some true, Some true => Some true
  | _, _ => None
  end.
Fixpoint p_eval (e : pexpr) (r : row) : option bool :=
  match e with
  | PLit b => b
  | PGt f v => match r f with Some x => Some (match vcmp x v with Gt => true | _ => false end) | None => None end
  | PNull f => Some (match r f with None => true | Some _ => false end)
  | PAnd a b => and3 (p_eval a r) (p_eval b r)
  end.
Fixpoint p_columns (e : pexpr) : list nat :=
  match e with PLit _ => [] | PGt f _ | PNull f => [f] | PAnd a b => p_columns a ++ p_columns b end.
Definition p_literal (e : pexpr) : option (option bool) := match e with PLit b => Some b | _ => None end.
Definition look (gs : list (nat * ninterval)) (f : nat) : option ninterval := option_map snd (find (fun x => fst x =? f) gs).
Fixpoint p_simplify (gs : list (nat * ninterval)) (e : pexpr) : pexpr :=
  match e with
  | PLit b => PLit b
  | PGt f v =>
      match look gs f with
      | Some NNull => PLit None
      | Some (NNot lo hi) =>
          match hi with
          | Some m => match vcmp m v with
                      | Gt => match lo with Some a => match vcmp v a with Lt => PLit (Some true) | _ => e end | None => e end
                      | _ => PLit (Some false)
                      end
          | None => e
          end
      | _ => e
      end
  | PNull f => match look gs f with Some NNull => PLit (Some true) | Some (NNot _ _) => PLit (Some false) | _ => e end
  | PAnd a b =>
      match p_simplify gs a, p_simplify gs b with
      | PLit (Some false), _ | _, PLit (Some false) => PLit (Some false)
      | PLit (Some true), x => x
      | x, PLit (Some true) => x
      | x, y => PAnd x y
      end
  end.
Definition demo : lang :=
  {| expr := pexpr; e_eval := p_eval; e_columns := p_columns; e_literal := p_literal; e_simplify := fun gs e => Some (p_simplify gs e) |}.

Lemma vle_vcmp_trans : forall x m v, vle x m -> vcmp m v <> Gt -> vcmp x v <> Gt.
Proof.
  intros [x|x|x|x] [m|m|m|m] [v|v|v|v] H1 H2; cbn [vle vcmp] in *; try contradiction; try congruence.
  - apply Z.compare_le_iff. pose proof (proj1 (Z.compare_le_iff _ _) H2). lia.
  - destruct x, m, v; cbn in *; congruence.
  - apply Z.compare_le_iff. pose proof (proj1 (Z.compare_le_iff _ _) H2). lia.
  - eapply ble_trans; eauto.
Qed.
Lemma vcmp_vle_gt : forall v a x, vcmp v a = Lt -> vle a x -> vcmp x v = Gt.
Proof.
  intros [v|v|v|v] [a|a|a|a] [x|x|x|x] H1 H2; cbn [vle vcmp] in *; try contradiction; try congruence.
  - apply Z.compare_gt_iff. pose proof (proj1 (Z.compare_lt_iff _ _) H1). lia.
  - destruct x, a, v; cbn in *; congruence.
  - apply Z.compare_gt_iff. pose proof (proj1 (Z.compare_lt_iff _ _) H1). lia.
  - rewrite bcmp_sym. replace (bcmp v x) with Lt; [reflexivity|]. symmetry. apply ble_cases in H2 as [H2| ->]; auto. eapply bcmp_trans; eauto.
Qed.
Lemma and3_fl : forall x, and3 (Some false) x = Some false.
Proof. reflexivity. Qed.
Lemma and3_fr : forall x, and3 x (Some false) = Some false.
Proof. intros [[|]|]; reflexivity. Qed.
Lemma and3_tl : forall x, and3 (Some true) x = x.
Proof. intros [[|]|]; reflexivity. Qed.
Lemma and3_tr : forall x, and3 x (Some true) = x.
Proof. intros [[|]|]; reflexivity. Qed.
Lemma simplify_sound : forall gs r, (forall f i, In (f, i) gs -> sat i (r f)) -> forall e, p_eval (p_simplify gs e) r = p_eval e r.
Proof.
  intros gs r H. assert (Hl : forall f i, look gs f = Some i -> sat i (r f)).
  { intros f i E. unfold look in E. destruct (find _ gs) as [[f' i']|] eqn:Ef; [|discriminate]. cbn in E. injection E as ->.
    apply find_some in Ef as [Hin He]. cbn [fst] in He. apply Nat.eqb_eq in He. subst. auto. }
  induction e as [b|f v|f|a IHa b IHb]; cbn [p_simplify]; auto.
  - destruct (look gs f) as [[|lo hi|lo hi]|] eqn:El; auto; apply Hl in El; cbn [sat] in El.
    + cbn [p_eval]. now rewrite El.
    + destruct El as (x & Ex & Hlo & Hhi). destruct hi as [m|]; auto. specialize (Hhi m eq_refl).
      destruct (vcmp m v) eqn:Em.
      1,2: cbn [p_eval]; rewrite Ex; assert (Hx : vcmp x v <> Gt) by (apply (vle_vcmp_trans x m v); congruence); destruct (vcmp x v); congruence.
      destruct lo as [a|]; auto. destruct (vcmp v a) eqn:Ea; auto. cbn [p_eval]. rewrite Ex, (vcmp_vle_gt v a x Ea (Hlo a eq_refl)). reflexivity.
  - destruct (look gs f) as [[|lo hi|lo hi]|] eqn:El; auto; apply Hl in El; cbn [sat] in El; cbn [p_eval].
    + now rewrite El.
    + destruct El as (x & -> & _). reflexivity.
  - cbn [p_eval]. rewrite <- IHa, <- IHb.
    destruct (p_simplify gs a) as [[[|]|]| | |], (p_simplify gs b) as [[[|]|]| | |]; cbn [p_eval]; rewrite ?and3_fl, ?and3_fr, ?and3_tl, ?and3_tr; reflexivity.
Qed.
Theorem demo_ok : lang_ok demo.
Proof.
  constructor; cbn [demo expr e_eval e_columns e_literal e_simplify].
  - induction e as [b|f v|f|a IHa b IHb]; intros r r' H; cbn [p_eval p_columns] in *; auto.
    + rewrite (H f); auto. left; auto.
    + rewrite (H f); auto. left; auto.
    + rewrite (IHa r r'), (IHb r r'); auto; intros f Hf; apply H, in_or_app; auto.
  - intros [b| | |] b' E r; try discriminate. injection E as ->. reflexivity.
  - intros gs e e' E r H. injection E as <-. unfold holds. cbn [demo e_eval]. now rewrite simplify_sound.
Qed.

(* ---- page statistics: a case for each type, and the wrong ones ---- *)
Definition i64 : dtype := TInt (-9223372036854775808) 9223372036854775807.
Definition f64_inf : N := 9218868437227405312.
Definition f64 (neg : bool) (m : N) : value := VFloat {| fneg := neg; fmag := m |}.
Definition one : value := f64 false 4607182418800017408.
Definition two : value := f64 false 4611686018427387904.
Definition nan : value := f64 false 9221120237041090560.
Definition str (l : list N) : value := VBytes l.

Definition typedb (t : dtype) (o : option value) : bool :=
  match o with
  | None => true
  | Some v =>
      match t, v with
      | TInt lo hi, VInt z => (lo <=? z)%Z && (z <=? hi)%Z
      | TBool, VBool _ | TFloat _, VFloat _ => true
      | TUtf8, VBytes s => valid_utf8 s
      | TBinary, VBytes s => forallb (fun b => (b <? 256)%N) s
      | _, _ => false
      end
  end.
Lemma typedb_ok : forall t a, forallb (forallb (typedb t)) a = true -> Forall (typed_array t) a.
Proof.
  intros t a H. apply Forall_forall. intros l Hl v Hv. rewrite forallb_forall in H. specialize (H l Hl). rewrite forallb_forall in H. specialize (H _ Hv).
  cbn [typedb] in H. destruct t, v; try discriminate; cbn [typed]; auto; try lia.
  all: try (apply Forall_forall; rewrite forallb_forall in H; intros x Hx; specialize (H x Hx); lia).
Qed.

Example ints_case : collect_statistics i64 [[Some (VInt 3); None]; [Some (VInt (-7)); Some (VInt 40)]; [None]] =
  Some {| StatsModel.st_nulls := 2; StatsModel.st_min := Some (VInt (-7)); StatsModel.st_max := Some (VInt 40) |}.
Proof. reflexivity. Qed.
Example floats_case : collect_statistics (TFloat f64_inf) [[Some two; None]; [Some (f64 true 0)]; [Some one]] =
  Some {| StatsModel.st_nulls := 1; StatsModel.st_min := Some (f64 true 0); StatsModel.st_max := Some two |}.
Proof. reflexivity. Qed.
(* a binary column with a value of 65 bytes: the upper bound is its first 64 bytes plus one *)
Example binary_case : collect_statistics TBinary [[Some (str (repeat 7%N 65)); Some (str [1%N])]] =
  Some {| StatsModel.st_nulls := 0; StatsModel.st_min := Some (str [1%N]); StatsModel.st_max := Some (str (repeat 7%N 63 ++ [8%N])) |}.
Proof. vm_compute. reflexivity. Qed.
Example binary_covers : covers {| StatsModel.st_nulls := 0; StatsModel.st_min := Some (str [1%N]); StatsModel.st_max := Some (str (repeat 7%N 63 ++ [8%N])) |}
  [Some (str (repeat 7%N 65)); Some (str [1%N])].
Proof.
  refine (collect_covers TBinary [[Some (str (repeat 7%N 65)); Some (str [1%N])]] _ _ _ _ binary_case); cbn; auto.
  apply typedb_ok. vm_compute. reflexivity.
Qed.
Example strings_plain : plain TUtf8 [[Some (str (repeat 97%N 70)); Some (str [195%N; 169%N])]].
Proof. intros s [E|[E|[]]]; injection E as <-; [right; reflexivity|left; cbn; unfold prefix_length; lia]. Qed.
Example bools_case : collect_statistics TBool [[Some (VBool true); None]; [Some (VBool true)]] =
  Some {| StatsModel.st_nulls := 1; StatsModel.st_min := Some (VBool true); StatsModel.st_max := Some (VBool true) |}.
Proof. reflexivity. Qed.

(* a NaN lies above the upper bound (the comparison kernels order NaN above all numbers) *)
Theorem nan_outside : exists inf arrays st, Forall (typed_array (TFloat inf)) arrays /\ arrays <> [] /\
  collect_statistics (TFloat inf) arrays = Some st /\ ~ bounds st (concat arrays).
Proof.
  exists f64_inf, [[Some one; Some nan]]. eexists. split; [|split; [discriminate|split; [reflexivity|]]].
  - apply typedb_ok. vm_compute. reflexivity.
  - intros H. destruct (H nan) as [_ H2]; [right; left; auto|]. specialize (H2 one eq_refl). cbn in H2. lia.
Qed.

(* The string of 63 x and an e with acute accent is cut to 63 x, below the string of 63 x and an a: the upper bound is 63 x
   and a b, which is below the first. *)
Definition xs : list N := repeat 120%N 63.
Definition cut_string : value := str (xs ++ [195; 169; 33]%N).
Definition cut_arrays : list (list (option value)) := [[Some cut_string; Some (str (xs ++ [97; 33]%N))]].
Theorem string_outside : exists arrays st, Forall (typed_array TUtf8) arrays /\ arrays <> [] /\
  collect_statistics TUtf8 arrays = Some st /\ ~ bounds st (concat arrays).
Proof.
  exists cut_arrays. eexists. split; [|split; [discriminate|split; [vm_compute; reflexivity|]]].
  - apply typedb_ok. vm_compute. reflexivity.
  - intros H. destruct (H cut_string) as [_ H2]; [left; auto|]. apply (H2 _ eq_refl). vm_compute. reflexivity.
Qed.

(* nulls of the batches after the one in which both values have been seen are not counted *)
Theorem boolean_nulls_missed : exists arrays st, Forall (typed_array TBool) arrays /\ arrays <> [] /\
  collect_statistics TBool arrays = Some st /\ StatsModel.st_nulls st = 0%N /\ In None (concat arrays).
Proof.
  exists [[Some (VBool true); Some (VBool false)]; [None]]. eexists. split; [|split; [discriminate|split; [reflexivity|split; [reflexivity|]]]].
  - apply typedb_ok. reflexivity.
  - cbn. auto.
Qed.

(* ---- scans ---- *)
Definition mkrow (l : list (option value)) : row := fun f => nth f l None.
Definition irow (z : Z) (s : list N) : row := mkrow [Some (VInt z); Some (str s)].
Definition fld i t n := {| f_id := i; f_type := t; f_nullable := n; f_stats := true |}.
Definition g1 : frag :=
  {| g_id := 3; g_fields := [fld 0 i64 true; fld 1 TUtf8 false];
     g_pages := [[[irow 1 [97]; irow 2 [98]]; [irow 5 [99]]]; [[irow 9 [100]; irow 4 [101]; irow 8 [102]]]; [[irow 7 [103]]]]%N;
     g_dv := Some (DSet [5%N]); g_seq := None |}.
Definition k1 : scan_config := {| k_id := true; k_addr := false; k_fields := [1; 0] |}.
Definition e1 : expr demo := PAnd (PGt 0 (VInt 5)) (PGt 1 (str [99%N])).


(* a fragment that the writer can produce: everything asked by [scan_ok] but the conditions on values and row ids *)
Record legal (g : frag) : Prop := {
  le_frag : frag_ok g;
  le_fields : NoDup (map f_id (g_fields g));
  le_sane : forall f, In f (g_fields g) -> sane (f_type f);
  le_batch : forall p, In p (g_pages g) -> p <> [];
  le_typed : forall f p, In f (g_fields g) -> In p (g_pages g) -> Forall (typed_array (f_type f)) (arrays_of (f_id f) p);
  le_nulls : forall f r, In f (g_fields g) -> f_nullable f = false -> In r (rows_of g) -> r (f_id f) <> None;
  le_written : file_stats g <> None }.
Fixpoint nodupb (l : list nat) : bool := match l with [] => true | x :: t => negb (memb x t) && nodupb t end.
Definition legalb (g : frag) : bool :=
  (g_id g <? two32)%N && (N.of_nat (length (rows_of g)) <? two32)%N &&
  forallb (fun b => length (concat (map page_rows (firstn b (g_pages g)))) =? b * first_page_len g) (seq 0 (length (g_pages g))) &&
  nodupb (map f_id (g_fields g)) &&
  forallb (fun f => match f_type f with TInt lo hi => (lo <=? hi)%Z | _ => true end) (g_fields g) &&
  forallb (fun p : list (list row) => match p with [] => false | _ => true end) (g_pages g) &&
  forallb (fun f => forallb (fun p => forallb (forallb (typedb (f_type f))) (arrays_of (f_id f) p)) (g_pages g)) (g_fields g) &&
  forallb (fun f => f_nullable f || forallb (fun r : row => match r (f_id f) with None => false | _ => true end) (rows_of g)) (g_fields g) &&
  match file_stats g with None => false | Some _ => true end.
Lemma legalb_ok : forall g, legalb g = true -> legal g.
Proof.
  intros g H. unfold legalb in H. repeat (apply andb_true_iff in H as [H ?H]). rewrite forallb_forall in *.
  constructor; [constructor|..].
  - apply N.ltb_lt. auto.
  - apply N.ltb_lt. auto.
  - intros b Hb. apply Nat.eqb_eq, H6. apply in_seq. lia.
  - clear -H5. induction (map f_id (g_fields g)) as [|x l IH]; constructor; cbn [nodupb] in H5; apply andb_true_iff in H5 as [H1 H2]; auto.
    intros Hx. apply memb_In in Hx. rewrite Hx in H1. discriminate.
  - intros f Hf. specialize (H4 f Hf). unfold sane. destruct (f_type f); auto. apply Z.leb_le. auto.
  - intros p Hp. specialize (H3 p Hp). destruct p; congruence.
  - intros f p Hf Hp. apply typedb_ok. specialize (H2 f Hf). rewrite forallb_forall in H2. auto.
  - intros f r Hf Hn Hr. specialize (H1 f Hf). rewrite Hn in H1. cbn [orb] in H1. rewrite forallb_forall in H1. specialize (H1 r Hr). destruct (r (f_id f)); congruence.
  - destruct (file_stats g); congruence.
Qed.
Lemma legal_column : forall g f, legal g -> In f (g_fields g) -> (forall p, In p (g_pages g) -> plain (f_type f) (arrays_of (f_id f) p)) -> column_ok g f.
Proof. intros g f [] Hf Hp. constructor; auto. Qed.

Example g1_ok : scan_ok g1 k1 e1.
Proof.
  assert (Hl : legal g1) by (apply legalb_ok; vm_compute; reflexivity). constructor; try apply Hl.
  - intros _. exact Logic.I.
  - intros f Hf _ _. apply legal_column; auto. destruct Hf as [<-|[<-|[]]]; cbn [fld f_type f_id plain i64]; auto.
    intros p Hp s Hs. left. assert (Hall : forallb (fun o => match o with Some (VBytes s) => length s <=? 64 | _ => true end)
      (concat (map (fun p => concat (arrays_of 1 p)) (g_pages g1))) = true) by (vm_compute; reflexivity).
    rewrite forallb_forall in Hall. specialize (Hall (Some (VBytes s))). cbn beta iota in Hall. apply Nat.leb_le. apply Hall.
    apply in_concat. exists (concat (arrays_of 1 p)). split; auto. apply in_map_iff. exists p. auto.
Qed.
Definition irow_out (z : Z) (s : list N) (id : N) : out_row := {| u_vals := [Some (str s); Some (VInt z)]; u_id := CVal id; u_addr := NoCol |}.
Example g1_scan : frag_scan g1 k1 e1 = Ok [irow_out 9 [100%N] (3 * two32 + 3); irow_out 7 [103%N] (3 * two32 + 6)].
Proof. vm_compute. reflexivity. Qed.
(* the first page is skipped, the last one needs no evaluation *)
Example g1_pages : simplified_predicates g1 e1 = Some [PLit (Some false); PGt 0 (VInt 5); PLit (Some true)].
Proof. vm_compute. reflexivity. Qed.

(* ---- rows lost ---- *)
Definition k0 : scan_config := {| k_id := false; k_addr := true; k_fields := [0] |}.
Definition one_column (t : dtype) (n : bool) (pages : list (list (list (option value)))) (q : option rowseq) : frag :=
  {| g_id := 0; g_fields := [fld 0 t n]; g_pages := map (map (map (fun o => mkrow [o]))) pages; g_dv := None; g_seq := q |}.

(* x > 2.0 does not return the NaN that a plain filter returns *)
Theorem nan_lost : exists g k (e : expr demo) rows, legal g /\ ids_ok g k /\
  frag_scan g k e = Ok rows /\ length rows < length (want g k (holds e)).
Proof.
  exists (one_column (TFloat f64_inf) false [[[Some one; Some nan]]] None), k0, (PGt 0 two). eexists.
  split; [apply legalb_ok; vm_compute; reflexivity|]. split; [intros _; exact Logic.I|]. split; [vm_compute; reflexivity|]. vm_compute. lia.
Qed.
(* x IS NULL misses the null of the second batch *)
Theorem null_lost : exists g k (e : expr demo) rows, legal g /\ ids_ok g k /\
  frag_scan g k e = Ok rows /\ length rows < length (want g k (holds e)).
Proof.
  exists (one_column TBool true [[[Some (VBool true); Some (VBool false)]; [None]]] None), k0, (PNull 0). eexists.
  split; [apply legalb_ok; vm_compute; reflexivity|]. split; [intros _; exact Logic.I|]. split; [vm_compute; reflexivity|]. vm_compute. lia.
Qed.
(* x > "xx...xc" misses the string that was cut *)
Theorem string_lost : exists g k (e : expr demo) rows, legal g /\ ids_ok g k /\
  frag_scan g k e = Ok rows /\ length rows < length (want g k (holds e)).
Proof.
  exists (one_column TUtf8 false [cut_arrays] None), k0, (PGt 0 (str (xs ++ [99%N]))). eexists.
  split; [apply legalb_ok; vm_compute; reflexivity|]. split; [intros _; exact Logic.I|]. split; [vm_compute; reflexivity|]. vm_compute. lia.
Qed.
(* with stable row ids the rows of the second page carry the ids of the first *)
Theorem ids_wrong : exists g k (e : expr demo) rows q, legal g /\ g_seq g = Some q /\ seq_wf q /\ length (seq_iter q) = length (rows_of g) /\
  frag_scan g k e = Ok rows /\ map u_id rows <> map u_id (want g k (holds e)).
Proof.
  exists (one_column i64 false [[[Some (VInt 1); Some (VInt 2)]]; [[Some (VInt 3); Some (VInt 4)]]] (Some [Range 10 14]%N)),
    {| k_id := true; k_addr := false; k_fields := [0] |}, (PGt 0 (VInt 0)). do 2 eexists.
  split; [apply legalb_ok; vm_compute; reflexivity|]. split; [reflexivity|].
  split; [constructor; [cbn; unfold two64; lia|constructor]|]. split; [reflexivity|]. split; [vm_compute; reflexivity|]. vm_compute. discriminate.
Qed.

(* a non-nullable binary column with a value of 65 bytes 255 cannot be written: it has no upper bound *)
Theorem bound_missing : exists f p, f_nullable f = false /\ p <> [] /\ Forall (typed_array (f_type f)) (arrays_of (f_id f) p) /\
  (forall r, In r (page_rows p) -> r (f_id f) <> None) /\
  (exists st, collect_statistics (f_type f) (arrays_of (f_id f) p) = Some st /\ finish_stats f [st] = None).
Proof.
  exists (fld 0 TBinary false), [[mkrow [Some (str (repeat 255%N 65))]]]. split; [reflexivity|]. split; [discriminate|].
  split; [apply typedb_ok; vm_compute; reflexivity|]. split; [intros r [<-|[]]; discriminate|].
  eexists. split; [vm_compute; reflexivity|]. reflexivity.
Qed.
