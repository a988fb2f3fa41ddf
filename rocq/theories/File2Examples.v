(* A concrete codec and a concrete file that meet the hypotheses of the theorems about File2Model. *)
From Coq Require Import List Arith NArith Bool Lia.
From Verif Require Import Lib PageModel SerdeModel SerdeProofs File2Model File2Proofs File2Data File2Whole.
Import ListNotations.

(* lists with their length in front *)
Definition e_list {A} (e : A -> list N) (l : list A) : list N := N.of_nat (length l) :: flat_map e l.
Fixpoint d_many {A} (d : list N -> option (A * list N)) (n : nat) (b : list N) : option (list A * list N) :=
  match n with 0 => Some ([], b) | S n' => obind (d b) (fun '(x, b1) => omap (fun '(l, b2) => (x :: l, b2)) (d_many d n' b1)) end.
Definition d_list {A} (d : list N -> option (A * list N)) (b : list N) : option (list A * list N) := match b with [] => None | n :: t => d_many d (N.to_nat n) t end.
Definition e_n (x : N) : list N := [x].
Definition d_n (b : list N) : option (N * list N) := match b with [] => None | x :: t => Some (x, t) end.
Definition e_penc (e : penc) : list N := match e with Legacy x => 0%N :: e_list e_n x | Structural x => 1%N :: e_list e_n x end.
Definition d_penc (b : list N) : option (penc * list N) :=
  match b with [] => None | k :: t => omap (fun '(x, r) => (if (k =? 0)%N then Legacy x else Structural x, r)) (d_list d_n t) end.
Definition e_page (p : page) : list N := e_list e_n (pg_offs p) ++ e_list e_n (pg_sizes p) ++ e_penc (pg_enc p) ++ [pg_rows p; pg_prio p].
Definition d_page (b : list N) : option (page * list N) :=
  obind (d_list d_n b) (fun '(o, b1) => obind (d_list d_n b1) (fun '(s, b2) => obind (d_penc b2) (fun '(e, b3) => obind (d_n b3) (fun '(r, b4) => obind (d_n b4) (fun '(q, b5) =>
  Some ({| pg_offs := o; pg_sizes := s; pg_enc := e; pg_rows := r; pg_prio := q |}, b5)))))).
Definition e_col (c : cmeta) : list N := e_list e_page (cm_pages c) ++ e_list e_n (cm_offs c) ++ e_list e_n (cm_sizes c) ++ match cm_enc c with None => [0%N] | Some x => 1%N :: e_list e_n x end.
Definition d_col (b : list N) : option cmeta :=
  obind (d_list d_page b) (fun '(p, b1) => obind (d_list d_n b1) (fun '(o, b2) => obind (d_list d_n b2) (fun '(s, b3) => obind (d_n b3) (fun '(k, b4) =>
  if (k =? 0)%N then Some {| cm_pages := p; cm_offs := o; cm_sizes := s; cm_enc := None |}
  else obind (d_list d_n b4) (fun '(e, _) => Some {| cm_pages := p; cm_offs := o; cm_sizes := s; cm_enc := Some e |}))))).
Lemma d_list_ok {A} : forall (e : A -> list N) d, (forall x b, d (e x ++ b) = Some (x, b)) -> forall l b, d_list d (e_list e l ++ b) = Some (l, b).
Proof.
  intros e d H l b. unfold e_list. cbn [d_list app]. rewrite Nat2N.id. induction l as [|x l IH]; [reflexivity|]. cbn [length d_many flat_map]. rewrite <- app_assoc, H. cbn [obind]. now rewrite IH.
Qed.
Lemma d_n_ok : forall x b, d_n (e_n x ++ b) = Some (x, b).
Proof. reflexivity. Qed.
Lemma d_penc_ok : forall e b, d_penc (e_penc e ++ b) = Some (e, b).
Proof. intros [x|x] b; cbn [e_penc d_penc app]; now rewrite (d_list_ok _ _ d_n_ok). Qed.
Lemma d_page_ok : forall p b, d_page (e_page p ++ b) = Some (p, b).
Proof. intros [o s e r q] b. unfold e_page, d_page. cbn [pg_offs pg_sizes pg_enc pg_rows pg_prio]. rewrite <- !app_assoc, (d_list_ok _ _ d_n_ok). cbn [obind]. rewrite (d_list_ok _ _ d_n_ok). cbn [obind]. rewrite d_penc_ok. reflexivity. Qed.
Example codec_ok : forall c, d_col (e_col c) = Some c.
Proof.
  intros [p o s e]. unfold e_col, d_col. cbn [cm_pages cm_offs cm_sizes cm_enc]. rewrite (d_list_ok _ _ d_page_ok). cbn [obind]. rewrite (d_list_ok _ _ d_n_ok). cbn [obind]. rewrite (d_list_ok _ _ d_n_ok). cbn [obind].
  destruct e as [x|]; [|reflexivity]. cbn [d_n obind N.eqb]. rewrite <- (app_nil_r (e_list e_n x)), (d_list_ok _ _ d_n_ok). reflexivity.
Qed.

(* two columns; pages before and at the end, an external buffer, a global buffer *)
Definition ex_page v (k : nat) (b : list (list N)) : epage := {| ep_col := k; ep_bufs := b; ep_enc := (if v : bool then Structural else Legacy) [5]%N; ep_rows := 3; ep_prio := 0 |}.
Definition ex_ops v : list op := [OExternal [[1; 2]; [3]]%N; OPage (ex_page v 1 [[4; 5; 6]; [7]]%N); OGlobal [8; 9]%N; OPage (ex_page v 0 [[10]]%N); OPage (ex_page v 1 [[11; 12]]%N)].
Definition ex_fin v : list fwriter := [{| fw_external := []; fw_cols := [{| fc_pages := [ex_page v 0 [[13]]%N]; fc_bufs := []; fc_enc := [1]%N |}; {| fc_pages := []; fc_bufs := [[14]]%N; fc_enc := [2]%N |}] |}].
Example ex_file : forall v, exists file, write_file e_col v 2 (ex_ops v) (ex_fin v) [77; 78]%N = Some file /\ within file (ex_ops v) 2 /\ Forall (kind_ok v) (all_pages (ex_ops v) (ex_fin v)) /\ Forall (fun f => fw_external f = []) (ex_fin v) /\
  Forall (fun p => ep_col p < 2) (all_pages (ex_ops v) (ex_fin v)) /\ length (all_cols (ex_fin v)) = 2 /\ tight [[14]]%N.
Proof.
  intros v. destruct v; (eexists; split; [vm_compute; reflexivity|]; split; [repeat split; vm_compute; reflexivity|]; split; [repeat constructor|]; split; [repeat constructor|]; split; [repeat constructor|]; split; [reflexivity|exact Logic.I]).
Qed.
Example ex_opened : omap (fun file => (length file, omap (fun o => (op_desc o, map (fun c => map (fun p => map (bytes_of file) (combine (pg_offs p) (pg_sizes p))) (cm_pages c)) (op_cols o), map (bytes_of file) (op_glob o))) (open_file d_col 64 file)))
    (write_file e_col true 2 (ex_ops true) (ex_fin true) [77; 78]%N) =
  Some (734, Some ([77; 78]%N, [[[Some [10]%N]; [Some [13]%N]]; [[Some [4; 5; 6]%N; Some [7]%N]; [Some [11; 12]%N]]], [Some [77; 78]%N; Some [8; 9]%N])).
Proof. vm_compute. reflexivity. Qed.
(* an encoded batch *)
Example ex_batch : let cols := [{| cm_pages := [{| pg_offs := [0]%N; pg_sizes := [4]%N; pg_enc := Legacy [5]%N; pg_rows := 4%N; pg_prio := 0%N |}]; cm_offs := []; cm_sizes := []; cm_enc := Some [1]%N |}] in
  cols_ok F20 cols = true /\ (N.of_nat (length (concat_footer e_col [1; 2; 3; 4]%N cols (Some [9])%N)) < 2 ^ 64)%N /\ read_self_described d_col (concat_footer e_col [1; 2; 3; 4]%N cols (Some [9])%N) = Some ([9]%N, cols).
Proof. repeat split; vm_compute; reflexivity. Qed.
