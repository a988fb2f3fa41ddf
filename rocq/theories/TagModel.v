(* Tags: rust/lance/src/dataset/refs.rs.

   A tag name is the list of its characters (code points); a file name is a list of bytes.
   object_store's Path::child (PathPart::from) is modelled as its documentation says: the
   UTF-8 bytes, where every byte that is not ASCII, a control character or one of a list of
   special characters is replaced by '%' and two hexadecimal digits.  Simplifications: a tag
   file holds its version only (the manifest size and the JSON text are left out); a version
   exists if the function given says so. *)
From Coq Require Import List Arith NArith ZArith Bool String Ascii.
From Verif Require Import Lib NamingModel CleanupModel.
Import ListNotations.
Local Open Scope N_scope.

(* ---- names ---- *)
Fixpoint contains (s p : str) : bool := starts_with s p || match s with [] => false | _ :: t => contains t p end.
(* refs.rs:226-267; [alnum]: char::is_alphanumeric *)
Definition tag_char (alnum : N -> bool) (c : N) : bool := alnum c || (c =? 46) || (c =? 45) || (c =? 95).
Definition check_valid_ref (alnum : N -> bool) (s : str) : bool :=
  negb (match s with [] => true | _ => false end) && forallb (tag_char alnum) s &&
  negb (starts_with s (lit ".")) && negb (ends_with s (lit ".")) && negb (ends_with s (lit ".lock")) && negb (contains s (lit "..")).

(* char::encode_utf8 *)
Definition utf8 (c : N) : list N :=
  if c <? 128 then [c]
  else if c <? 2048 then [192 + c / 64; 128 + c mod 64]
  else if c <? 65536 then [224 + c / 4096; 128 + c / 64 mod 64; 128 + c mod 64]
  else [240 + c / 262144; 128 + c / 4096 mod 64; 128 + c / 64 mod 64; 128 + c mod 64].
Definition bytes (s : str) : str := flat_map utf8 s.
(* object_store 0.11 path/parts.rs: INVALID, PathPart::from *)
Definition special : list N := map N_of_ascii (list_ascii_of_string "\/{^}%`]"">[~<#|*?").
Definition hex (d : N) : N := if d <? 10 then 48 + d else 55 + d.
Definition encode_byte (b : N) : list N := if (b <? 32) || (127 <=? b) || memN b special then [37; hex (b / 16); hex (b mod 16)] else [b].
Definition part (s : str) : str :=
  if str_eqb s (lit ".") then lit "%2E" else if str_eqb s (lit "..") then lit "%2E%2E" else flat_map encode_byte s.
(* refs.rs:204-210: the file's name below _refs/tags *)
Definition tag_file (name : list N) : str := part (name ++ lit ".json").

(* ---- the operations, on the files below _refs/tags ---- *)
Definition tagdir := list (str * N).
Fixpoint lookup (f : str) (d : tagdir) : option N := match d with [] => None | (g, v) :: t => if str_eqb f g then Some v else lookup f t end.
Definition remove (f : str) (d : tagdir) : tagdir := filter (fun e => negb (str_eqb f (fst e))) d.
Definition store (f : str) (v : N) (d : tagdir) : tagdir := (f, v) :: remove f d.
(* refs.rs:92-105 *)
Definition get_version (alnum : N -> bool) (d : tagdir) (tag : str) : option N :=
  if check_valid_ref alnum tag then lookup (tag_file (bytes tag)) d else None.
(* refs.rs:107-143 *)
Definition create (alnum exists_version : N -> bool) (d : tagdir) (tag : str) (v : N) : option tagdir :=
  if check_valid_ref alnum tag then
    match lookup (tag_file (bytes tag)) d with
    | Some _ => None
    | None => if exists_version v then Some (store (tag_file (bytes tag)) v d) else None
    end
  else None.
(* refs.rs:145-157 *)
Definition delete (alnum : N -> bool) (d : tagdir) (tag : str) : option tagdir :=
  if check_valid_ref alnum tag then
    match lookup (tag_file (bytes tag)) d with Some _ => Some (remove (tag_file (bytes tag)) d) | None => None end
  else None.
(* refs.rs:159-194 *)
Definition update (alnum exists_version : N -> bool) (d : tagdir) (tag : str) (v : N) : option tagdir :=
  if check_valid_ref alnum tag then
    match lookup (tag_file (bytes tag)) d with
    | None => None
    | Some _ => if exists_version v then Some (store (tag_file (bytes tag)) v d) else None
    end
  else None.
(* refs.rs:57-90: the listed names are already encoded *)
Definition strip_json (f : str) : option str :=
  if ends_with f (lit ".json") then Some (firstn (List.length f - 5) f) else None.
Fixpoint list_tags (all d : tagdir) : option (list (str * N)) :=
  match d with
  | [] => Some []
  | (f, _) :: t => match strip_json f with
                   | None => list_tags all t
                   | Some name => match lookup (tag_file name) all with
                                  | None => None
                                  | Some v => obind (list_tags all t) (fun l => Some ((name, v) :: l))
                                  end
                   end
  end.

(* ---- concurrent creation of one tag: the three steps of create ---- *)
Inductive tpc := TStart (v : N) | TPut (v : N) | TOk (v : N) | TErr.
Record tst := { tg_tag : option N; tg_pc : N -> tpc }.
Definition tset (pc : N -> tpc) (i : N) (p : tpc) : N -> tpc := fun j => if j =? i then p else pc j.
Inductive tstep : tst -> tst -> Prop :=
| ts_exists : forall tag pc i v w, pc i = TStart v -> tag = Some w -> tstep {| tg_tag := tag; tg_pc := pc |} {| tg_tag := tag; tg_pc := tset pc i TErr |}
| ts_free : forall pc i v, pc i = TStart v -> tstep {| tg_tag := None; tg_pc := pc |} {| tg_tag := None; tg_pc := tset pc i (TPut v) |}
| ts_put : forall tag pc i v, pc i = TPut v -> tstep {| tg_tag := tag; tg_pc := pc |} {| tg_tag := Some v; tg_pc := tset pc i (TOk v) |}
| ts_fail : forall tag pc i v, pc i = TStart v \/ pc i = TPut v -> tstep {| tg_tag := tag; tg_pc := pc |} {| tg_tag := tag; tg_pc := tset pc i TErr |}.
Inductive truns : tst -> tst -> Prop :=
| tr_refl : forall s, truns s s
| tr_step : forall s t u, truns s t -> tstep t u -> truns s u.
