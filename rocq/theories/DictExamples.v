(* Pages with a dictionary: concrete pages and what goes wrong. *)
From Coq Require Import List Arith NArith Bool Lia.
From Verif Require Import Lib SchedModel SerdeModel FullZipModel MiniModel DictModel DictProofs.
Import ListNotations.
Local Open Scope nat_scope.

(* an estimate without error *)
Definition exact (vals : list value) : nat := length (firsts vals).
(* twenty strings, two of them different *)
Definition twenty : list value := flat_map (fun _ => [[104; 105]; [98; 121; 101]]%N) (seq 0 10).
Definition twenty_block : block := BVar 32 (dict_offsets 0 twenty) (concat twenty).
Example twenty_holds : holds twenty_block twenty /\ uses_dictionary exact twenty_block = true /\ distinct_at_most 255 twenty /\ (N.of_nat (length (concat twenty)) < 2147483648)%N.
Proof. split; [constructor; vm_compute; reflexivity|]. split; [vm_compute; reflexivity|]. split; [apply firsts_few; vm_compute; lia|vm_compute; reflexivity]. Qed.
Example twenty_read : match encode_page exact true twenty_block with
  | Done (WithDict is k buf) => is = flat_map (fun _ => [0; 1]) (seq 0 10) /\ length buf = 25 /\ read_items is k buf [3; 0; 3] = Some [[98; 121; 101]; [104; 105]; [98; 121; 101]]%N
  | _ => False end.
Proof. vm_compute. auto. Qed.
(* the same strings, one of them null (its value is empty) *)
Definition with_null : block := BNullable (BVar 32 (dict_offsets 0 ([] :: twenty ++ twenty)) (concat ([] :: twenty ++ twenty))) (false :: repeat true 40).
Theorem nulls_refuted : uses_dictionary exact with_null = true /\ forall debug, encode_page exact debug with_null = Panic.
Proof.
  assert (U : uses_dictionary exact with_null = true) by (vm_compute; reflexivity). split; [exact U|]. intros debug. apply other_blocks; [exact U|]. left. unfold with_null. eauto.
Qed.
(* the same strings in an array with 64-bit offsets *)
Theorem large_strings_refuted : exists b, num_values b = 20 /\ uses_dictionary exact b = true /\ forall debug, encode_page exact debug b = Panic.
Proof.
  exists (BVar 64 (dict_offsets 0 twenty) (concat twenty)). assert (U : uses_dictionary exact (BVar 64 (dict_offsets 0 twenty) (concat twenty)) = true) by (vm_compute; reflexivity).
  split; [vm_compute; reflexivity|]. split; [exact U|]. intros debug. apply other_blocks; [exact U|]. right. right. eauto.
Qed.
(* ten lists of two equal decimals *)
Theorem fixed_lists_refuted : exists b, num_values b = 10 /\ uses_dictionary exact b = true /\ forall debug, encode_page exact debug b = Panic.
Proof.
  exists (BFsl 2 (BFixed 128 (repeat (repeat 7%N 16) 20))). assert (U : uses_dictionary exact (BFsl 2 (BFixed 128 (repeat (repeat 7%N 16) 20))) = true) by (vm_compute; reflexivity).
  split; [vm_compute; reflexivity|]. split; [exact U|]. intros debug. apply other_blocks; [exact U|]. right. left. eauto.
Qed.
(* an estimate that is too low: 257 different decimals taken for 25 *)
Definition decimals (n : nat) : list value := map (fun i => le_bytes 16 (N.of_nat i)) (seq 0 n).
Example decimals_hold : Forall (fun v => length v = 16) (decimals 257) /\ uses_dictionary (fun _ => 25) (BFixed 128 (decimals 257)) = true /\ distinct_more 256 (decimals 257) /\
  (N.of_nat (length (concat (decimals 257))) < 2147483648)%N /\ (N.of_nat (length (decimals 257)) < 268435456)%N.
Proof.
  split; [apply Forall_forall; intros v V; apply in_map_iff in V; destruct V as (i & <- & _); reflexivity|]. split; [vm_compute; reflexivity|].
  split; [apply firsts_many; apply Nat.ltb_lt; vm_compute; reflexivity|]. split; vm_compute; reflexivity.
Qed.
Theorem estimate_refuted : exists estimate b vals is k buf, holds b vals /\ encode_page estimate false b = Done (WithDict is k buf) /\ read_items is k buf [256] = Some [nth 0 vals []] /\ nth 256 vals [] <> nth 0 vals [] /\
  encode_page estimate true b = Panic.
Proof.
  destruct decimals_hold as (F & U & L & _).
  assert (E : exists is k buf, encode_page (fun _ => 25) false (BFixed 128 (decimals 257)) = Done (WithDict is k buf) /\ read_items is k buf [256] = Some [nth 0 (decimals 257) []]).
  { do 3 eexists. split; [vm_compute; reflexivity|vm_compute; reflexivity]. }
  destruct E as (is & k & buf & E1 & E2). exists (fun _ => 25), (BFixed 128 (decimals 257)), (decimals 257), is, k, buf. split; [now constructor|]. split; [exact E1|]. split; [exact E2|].
  split; [vm_compute; discriminate|]. eapply many_values_checked; [constructor; exact F|exact U|]. apply firsts_many. apply firsts_many in L. lia.
Qed.
(* 256 different strings taken for 25: nothing can be read *)
Definition strings (n : nat) : list value := map (fun i => [N.of_nat i]) (seq 0 n).
Example strings_hold : var_values (dict_offsets 0 (strings 256)) (concat (strings 256)) = Some (strings 256) /\ uses_dictionary (fun _ => 25) (BVar 32 (dict_offsets 0 (strings 256)) (concat (strings 256))) = true /\
  distinct_at_most 256 (strings 256) /\ distinct_more 255 (strings 256) /\ (N.of_nat (length (concat (strings 256))) < 2147483648)%N.
Proof.
  split; [vm_compute; reflexivity|]. split; [vm_compute; reflexivity|]. split; [apply firsts_few; apply Nat.leb_le; vm_compute; reflexivity|]. split; [apply firsts_many; apply Nat.ltb_lt; vm_compute; reflexivity|vm_compute; reflexivity].
Qed.
Example fixed_256_meets : Forall (fun v => length v = 16) (decimals 256) /\ uses_dictionary (fun _ => 25) (BFixed 128 (decimals 256)) = true /\ distinct_at_most 256 (decimals 256).
Proof.
  split; [apply Forall_forall; intros v V; apply in_map_iff in V; destruct V as (i & <- & _); reflexivity|]. split; [vm_compute; reflexivity|]. apply firsts_few; apply Nat.leb_le; vm_compute; reflexivity.
Qed.
(* reading rows that are all empty lists: no items *)
Theorem empty_lists_refuted : exists b is k buf, encode_page exact true b = Done (WithDict is k buf) /\ read_items is k buf [0] <> None /\ read_items is k buf [] = None.
Proof.
  assert (E : exists is k buf, encode_page exact true twenty_block = Done (WithDict is k buf) /\ read_items is k buf [0] <> None).
  { do 3 eexists. split; [vm_compute; reflexivity|vm_compute; discriminate]. }
  destruct E as (is & k & buf & E1 & E2). exists twenty_block, is, k, buf. split; [exact E1|]. split; [exact E2|]. apply no_items.
Qed.
