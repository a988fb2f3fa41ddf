(* A small table, trained and used. *)
From Coq Require Import List Arith NArith ZArith Bool Lia.
From Verif Require Import Lib PageModel FsstModel FsstTable FsstProofs.
Import ListNotations.
Local Open Scope nat_scope.

Definition h0 (l : list nat) : nat := fold_left (fun a b => (31 * a + b) mod 64) l 0.
(* a, b and c and all symbols occur; later tables gain more *)
Definition seen (p : nat) : bool := (97 <=? p) && (p <=? 99) || (256 <=? p).
Definition count0 (t : table) (frac : nat) : Z * (nat -> nat) * (nat -> nat -> nat) := (Z.of_nat frac, fun p => if seen p then 900 else 0, fun p q => if seen p && seen q then 900 else 0).
(* two long ones, two of two or three bytes, two bytes *)
Definition pick (p : nat -> bool) (l : list sym) : list sym := firstn 2 (filter (fun s => p (length s)) l).
Definition order0 (l : list sym) : list sym := pick (fun n => 3 <? n) l ++ pick (fun n => (2 <=? n) && (n <=? 3)) l ++ pick (fun n => n =? 1) l.
Lemma pick_in : forall p l s, In s (pick p l) -> In s l.
Proof. unfold pick. intros p l s H. assert (X : In s (filter (fun s => p (length s)) l)) by (rewrite <- (firstn_skipn 2 (filter (fun s => p (length s)) l)); apply in_or_app; now left). now apply filter_In in X. Qed.
Lemma order0_in : forall l s, In s (order0 l) -> In s l.
Proof. unfold order0. intros l s H. apply in_app_or in H as [H|H]; [|apply in_app_or in H as [H|H]]; eauto using pick_in. Qed.
Definition show (f : ftable) := map (f_syms f) (seq 0 (f_n f)).
Example ex_build : option_map show (build h0 order0 count0 122) = Some [[97; 97]; [97; 98]; [97; 97; 97; 97; 97; 97; 97]; [97; 97; 98; 97; 97; 97; 97]; [97]; [98]].
Proof. vm_compute. reflexivity. Qed.
Definition buf0 : list nat := repeat 97 11 ++ [99; 98; 255] ++ repeat 98 8 ++ [122].
Definition offs0 : list nat := [0; 13; 13; 14; 23].
Definition res := compress h0 0%N (build h0 order0 count0 122) (repeat 0 table_size) buf0 offs0.
Example ex_compress : option_map (fun '(_, out, oo) => (out, oo)) res = Some ([2; 0; 0; 255; 99; 5; 255; 255; 5; 5; 5; 5; 5; 5; 5; 5; 255; 122], [0; 6; 6; 8; 18]).
Proof. vm_compute. reflexivity. Qed.
Example ex_back : match res with Some (tbl, out, oo) => decompress tbl out oo = Some (buf0, offs0) | None => False end.
Proof. vm_compute. reflexivity. Qed.
Example ex_small : buf0 <> [] /\ Forall (fun b => b < 256) buf0 /\ (forall t, compress h0 100%N None (repeat 0 table_size) buf0 offs0 = Some t -> snd (fst t) = buf0).
Proof. split; [discriminate|]. split; [vm_compute; repeat constructor; lia|]. intros t H. vm_compute in H. injection H as <-. reflexivity. Qed.
(* the fourth and the first string, taken out of the compressed data *)
Example ex_select : match res with Some (tbl, out, _) => decompress tbl (slice 8 18 out ++ slice 0 6 out) [0; 10; 16] = Some (slice 14 23 buf0 ++ slice 0 13 buf0, [0; 9; 22]) | None => False end.
Proof. vm_compute. reflexivity. Qed.
