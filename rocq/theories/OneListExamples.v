(* Concrete cases for OneListProofs: a codec of numbers that meets the hypotheses, and lists of lists of them. *)
From Coq Require Import List Arith Bool Lia Sorted.
From Verif Require Import OneListModel OneListProofs.
Import ListNotations.
Local Open Scope nat_scope.

Definition rd_nums (c : list nat) (p : params) : option (list nat) :=
  match p with
  | Range s e => if e <=? s then Some [] else if length c <? e then None else Some (firstn (e - s) (skipn s c))
  | RangeFull => Some c
  | RangeTo e => if length c <? e then None else Some (firstn e c)
  | RangeFrom s => Some (skipn s c)
  | Indices l => all_some (map (nth_error c) l)
  end.
Definition nums : codec := {| arr := list nat; val := nat; col := list nat; rows := fun a => a; slc := fun a s n => firstn n (skipn s a);
  wr := @concat nat; rd := rd_nums |}.
Lemma nums_ok : codec_ok True nums (fun _ => True).
Proof.
  split; [intros; split; [exact I|reflexivity]|]. intros arrs _ _. 
  assert (Q : forall vs : list nat, reads True (rd_nums vs) vs); [|assert (E : flat_map (rows nums) arrs = @concat nat arrs) by (rewrite flat_map_concat_map; f_equal; apply map_id); rewrite E; apply Q].
  intros vs. unfold reads, rd_nums. repeat split.
  - intros s e H. destruct (Nat.leb_spec e s) as [L|L]; [replace (e - s) with 0 by lia; reflexivity|]. destruct (Nat.ltb_spec (length vs) e); [lia|reflexivity].
  - intros s e H L. destruct (Nat.leb_spec e s); [lia|]. destruct (Nat.ltb_spec (length vs) e); [reflexivity|lia].
  - intros e H. destruct (Nat.ltb_spec (length vs) e); [lia|reflexivity].
  - intros l _ _ _ F. exists (map (fun i => nth i vs 0) l). rewrite Forall_forall in F. split.
    + apply all_some_map. intros i Hi. apply nth_error_nth'. auto.
    + rewrite map_map. apply map_ext_in. intros i Hi. symmetry. apply nth_error_nth'. auto.
  - intros l i Hi _ L. induction l as [|j l IH]; [destruct Hi|]. destruct Hi as [->|Hi]; cbn [map all_some].
    + apply nth_error_None in L. now rewrite L.
    + rewrite (IH Hi). destruct (nth_error vs j); reflexivity.
Qed.

(* two arrays of lists of lists; the first is a slice: its offsets begin at one, the items it uses at two *)
Definition a1 : arr (nested 2 nums) := ([1; 3; 3], ([0; 2; 3; 5], [90; 91; 1; 2; 3; 92])).
Definition a2 : arr (nested 2 nums) := ([0; 1; 2], ([1; 4; 4], [93; 4; 5; 6])).
Example wf0 : Forall (nested_wf 2 nums (fun _ => True)) [a1; a2].
Proof. repeat constructor; cbn; try discriminate; try lia. Qed.
Example rows0 : flat_map (rows (nested 2 nums)) [a1; a2] = [[[1]; [2; 3]]; []; [[4; 5; 6]]; [[]]].
Proof. reflexivity. Qed.
Example stored0 : wr (nested 2 nums) [a1; a2] = ([0; 2; 2; 3; 4], ([0; 1; 3; 6; 6], [1; 2; 3; 4; 5; 6])).
Proof. reflexivity. Qed.
Example range0 : rd (nested 2 nums) (wr (nested 2 nums) [a1; a2]) (Range 0 3) = Some [[[1]; [2; 3]]; []; [[4; 5; 6]]].
Proof. reflexivity. Qed.
Example take0 : rd (nested 2 nums) (wr (nested 2 nums) [a1; a2]) (Indices [0; 1; 2; 2]) = Some [[[1]; [2; 3]]; []; [[4; 5; 6]]; [[4; 5; 6]]].
Proof. reflexivity. Qed.
Example nested0 : reads (True \/ 2 <> 0) (rd (nested 2 nums) (wr (nested 2 nums) [a1; a2])) [[[1]; [2; 3]]; []; [[4; 5; 6]]; [[]]].
Proof. rewrite <- rows0. apply (nested_ok 2 True nums _ nums_ok); [discriminate|exact wf0]. Qed.
(* indices out of order fail *)
Example order0 : rd (nested 1 nums) (wr (nested 1 nums) [([0; 1; 2], [7; 8])]) (Indices [1; 0]) = None.
Proof. reflexivity. Qed.
