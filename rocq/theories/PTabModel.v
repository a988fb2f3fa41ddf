(* The page table of a file of format 1: rust/lance-file/src/page_table.rs, and how a data file of a fragment opens it:
   rust/lance/src/dataset/fragment.rs, rust/lance-table/src/format/fragment.rs.
   Simplifications: numbers are unbounded; the file is the list of numbers (i64) from the page table on, what follows it being any; a
   BTreeMap is the list of what was set, the last first. None: an error or a panic. *)
From Coq Require Import List ZArith Bool.
Import ListNotations.
Local Open Scope Z_scope.

(* PageTable: field, batch, and PageInfo: position and length *)
Definition table := list ((Z * nat) * (Z * Z)).
(* set 152-157, get 159-163 *)
Definition set (p : table) (f : Z) (b : nat) (i : Z * Z) : table := ((f, b), i) :: p.
Definition get (p : table) (f : Z) (b : nat) : option (Z * Z) := option_map snd (find (fun x => (fst (fst x) =? f) && Nat.eqb (snd (fst x)) b) p).
(* lo..=hi *)
Definition ids (lo hi : Z) : list Z := map (fun k => lo + Z.of_nat k) (seq 0 (Z.to_nat (hi - lo + 1))).
Definition keys (p : table) : list Z := map (fun x => fst (fst x)) p.
Definition batches (p : table) : nat := S (fold_right Nat.max 0%nat (map (fun x => snd (fst x)) p)).
Definition zmin (l : list Z) : Z := match l with [] => 0 | x :: r => fold_right Z.min x r end.
Definition zmax (l : list Z) : Z := match l with [] => 0 | x :: r => fold_right Z.max x r end.
(* write 104-150 *)
Definition cell (p : table) (f : Z) (b : nat) : list Z := match get p f b with Some (x, l) => [x; l] | None => [0; 0] end.
Definition write (p : table) (lo : Z) : option (list Z) :=
  match p with
  | [] => None
  | _ => if zmin (keys p) <? lo then None
         else Some (flat_map (fun f => flat_map (cell p f) (seq 0 (batches p))) (ids lo (zmax (keys p))))
  end.
(* load 54-93 *)
Definition load (file : list Z) (lo hi : Z) (nb : nat) : option table :=
  if hi <? lo then None
  else let n := length (ids lo hi) in
       if (length file <? n * nb * 2)%nat then None
       else Some (flat_map (fun k => map (fun b => ((lo + Z.of_nat k, b), (nth ((k * nb + b) * 2) file 0, nth ((k * nb + b) * 2 + 1) file 0))) (seq 0 nb)) (seq 0 n)).
(* DataFile::new_legacy 82-92: the ids of the schema, sorted; merge_insert.rs 975-987: those written anew elsewhere are set to -2 *)
Definition tombstone (updated fields : list Z) : list Z := map (fun f => if existsb (Z.eqb f) updated then -2 else f) fields.
(* FileFragment::get_field_id_offset 778-780 and open_reader 795-808 *)
Definition open_file (file : list Z) (fields : list Z) (nb : nat) : option table :=
  match fields with [] => None | first :: _ => load file first (zmax fields) nb end.
