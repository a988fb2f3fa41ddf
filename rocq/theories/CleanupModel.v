(* Removing old versions: rust/lance/src/dataset/cleanup.rs.

   A path is the list of its parts below the dataset's base (remove_prefix, 71-77, is the
   identity on them); a name is its list of ASCII codes, as in NamingModel.  Simplifications:
   times are integers; Path::child's percent-encoding is the identity on the names lance
   generates; a manifest is what the task reads from it; the order in which manifests are
   processed concurrently does not matter (they only add to sets), so it is the listing
   order; byte counts are left out. *)
From Coq Require Import List Arith NArith ZArith Bool String Ascii.
From Verif Require Import Lib NamingModel.
Import ListNotations.
Local Open Scope Z_scope.

Definition lit (s : string) : str := map N_of_ascii (list_ascii_of_string s).
Definition path := list str.
Definition path_eqb (a b : path) : bool := if list_eq_dec (list_eq_dec N.eq_dec) a b then true else false.
Definition has_path (p : path) (l : list path) : bool := existsb (path_eqb p) l.
Definition has_str (s : str) (l : list str) : bool := existsb (str_eqb s) l.

(* object_store::path::Path: as_ref joins the parts with '/' *)
Fixpoint joined (p : path) : str := match p with [] => [] | [x] => x | x :: t => x ++ 47%N :: joined t end.
Fixpoint starts_with (s p : str) : bool :=
  match p, s with [], _ => true | c :: p', d :: s' => (c =? d)%N && starts_with s' p' | _, _ => false end.
(* Path::extension: after the last '.' of the file name, unless empty *)
Fixpoint after_dot (s : str) : option str :=
  match s with
  | [] => None
  | c :: t => match after_dot t with Some e => Some e | None => if (c =? dot)%N then Some t else None end
  end.
Definition extension (p : path) : option str :=
  match p with [] => None | _ => match after_dot (last p []) with Some [] => None | o => o end end.
Definition is_ext (p : path) (e : string) : bool := match extension p with Some x => str_eqb x (lit e) | None => false end.

(* what a manifest file says (format/manifest.rs, index section) *)
Record delref := { dr_frag : N; dr_version : N; dr_id : N; dr_bitmap : bool }.
Record minfo := { mi_version : N; mi_time : Z; mi_data : list str; mi_dels : list delref; mi_txn : option str; mi_uuids : list str }.
(* an object: last_modified and, if it can be read as a manifest, its contents *)
Record obj := { ob_time : Z; ob_man : option minfo }.
Definition dir := list (path * obj).

(* lance-table/src/io/deletion.rs:36-46 *)
Definition deletion_path (d : delref) : path :=
  [lit "_deletions"; dec (dr_frag d) ++ 45%N :: dec (dr_version d) ++ 45%N :: dec (dr_id d) ++ dot :: lit (if dr_bitmap d then "bin" else "arrow")].
Definition data_path (f : str) : path := [lit "data"; f].
Definition txn_path (f : str) : path := [lit "_transactions"; f].

(* cleanup.rs:57-63 *)
Record refs := { rf_data : list path; rf_del : list path; rf_txn : list path; rf_uuid : list str }.
Definition no_refs : refs := {| rf_data := []; rf_del := []; rf_txn := []; rf_uuid := [] |}.
(* cleanup.rs:199-240 *)
Definition add_refs (m : minfo) (r : refs) : refs :=
  {| rf_data := map data_path (mi_data m) ++ rf_data r; rf_del := map deletion_path (mi_dels m) ++ rf_del r;
     rf_txn := match mi_txn m with Some t => txn_path t :: rf_txn r | None => rf_txn r end; rf_uuid := mi_uuids m ++ rf_uuid r |}.
(* cleanup.rs:94-104 *)
Record inspection := { in_old : list path; in_ref : refs; in_ver : refs; in_tagged : list N }.
Definition empty_inspection : inspection := {| in_old := []; in_ref := no_refs; in_ver := no_refs; in_tagged := [] |}.

(* cleanup.rs:79-89: the task; [ct_version] is the version the dataset is checked out at *)
Record ctask := { ct_version : N; ct_before : Z; ct_unverified : bool; ct_error : bool }.

(* lance-table/src/io/commit.rs:354-369 *)
Definition is_manifest (p : path) : bool :=
  match p with d :: _ :: _ => str_eqb d (lit "_versions") && is_ext p "manifest" | _ => false end.
(* cleanup.rs:175-180 *)
Definition working (c : ctask) (tagged : list N) (m : minfo) : bool :=
  (ct_version c <=? mi_version m)%N || (ct_before c <=? mi_time m) || memN (mi_version m) tagged.
(* cleanup.rs:162-197; None: the manifest cannot be read *)
Definition process_manifest_file (c : ctask) (tagged : list N) (e : path * obj) (i : inspection) : option inspection :=
  match ob_man (snd e) with
  | None => None
  | Some m =>
      let w := working c tagged m in
      Some {| in_old := if w then in_old i else fst e :: in_old i;
              in_ref := if w then add_refs m (in_ref i) else in_ref i;
              in_ver := if w then in_ver i else add_refs m (in_ver i);
              in_tagged := if memN (mi_version m) tagged then mi_version m :: in_tagged i else in_tagged i |}
  end.
(* cleanup.rs:145-160 *)
Fixpoint process_manifests (c : ctask) (tagged : list N) (l : dir) : option inspection :=
  match l with
  | [] => Some empty_inspection
  | e :: t => obind (process_manifests c tagged t) (fun i => if is_manifest (fst e) then process_manifest_file c tagged e i else Some i)
  end.

(* cleanup.rs:300-411 *)
Definition tracked (p : path) (in_progress : bool) (ref ver : list path) : bool :=
  if has_path p ref then false else negb in_progress || has_path p ver.
Definition removable (p : path) (in_progress : bool) (i : inspection) : bool :=
  let s := joined p in
  let by_ext :=
    if is_ext p "lance" then if starts_with s (lit "data") then tracked p in_progress (rf_data (in_ref i)) (rf_data (in_ver i)) else false
    else if is_ext p "manifest" then false
    else if is_ext p "arrow" || is_ext p "bin"
         then if starts_with s (lit "_deletions") then tracked p in_progress (rf_del (in_ref i)) (rf_del (in_ver i)) else false
    else if is_ext p "txn"
         then if starts_with s (lit "_transactions") then tracked p in_progress (rf_txn (in_ref i)) (rf_txn (in_ver i)) else false
    else false in
  if starts_with s (lit "_versions/.tmp") then negb in_progress
  else if starts_with s (lit "_indices")
       then match nth_error p 1 with
            | None => false
            | Some u => if has_str u (rf_uuid (in_ref i)) then false
                        else if negb in_progress || has_str u (rf_uuid (in_ver i)) then true else by_ext
            end
       else by_ext.

(* cleanup.rs:242-298: the paths given to remove_stream, in order.  [l]: the listing of the base
   directory; lance-io/src/object_store.rs:73-85: only files last modified before [ct_before] *)
Definition seven_days : Z := 7 * 86400 * 1000000000.
Definition in_progress (c : ctask) (now : Z) (o : obj) : bool := negb (ct_unverified c) && (now - seven_days <=? ob_time o).
Definition listed_removals (c : ctask) (now : Z) (i : inspection) (l : dir) : list path :=
  map fst (filter (fun e => (ob_time (snd e) <? ct_before c) && removable (fst e) (in_progress c now (snd e)) i) l).
Definition removals (c : ctask) (now : Z) (i : inspection) (l : dir) : list path := listed_removals c now i l ++ in_old i.
(* cleanup.rs:122-143: None is an error, before anything is removed *)
Definition inspect (c : ctask) (tagged : list N) (l : dir) : option inspection :=
  obind (process_manifests c tagged l) (fun i => if ct_error c && negb (match in_tagged i with [] => true | _ => false end) then None else Some i).
Definition remove_all (ps : list path) (l : dir) : dir := filter (fun e => negb (has_path (fst e) ps)) l.
(* a whole run on a directory nobody else changes *)
Definition cleanup (c : ctask) (tagged : list N) (now : Z) (l : dir) : option dir :=
  obind (inspect c tagged l) (fun i => Some (remove_all (removals c now i l) l)).
