(* Manifest file names and finding the latest one:
   rust/lance-table/src/io/commit.rs:67-136 and 190-352.
   A file name is its list of (ASCII) character codes.  Directory prefixes are
   left out: all names are inside _versions. *)
From Coq Require Import List Arith NArith Bool.
From Verif Require Import Lib SerdeModel.
Import ListNotations.
Local Open Scope N_scope.

Definition str := list N.
Definition str_eqb (a b : str) : bool := if list_eq_dec N.eq_dec a b then true else false.
Definition dot : N := 46.
Definition manifest_ext : str := [109; 97; 110; 105; 102; 101; 115; 116]. (* "manifest" *)
Definition detached_prefix : N := 100. (* 'd' *)
Definition u64_max : N := 18446744073709551615.
(* manifest.rs:96-100 *)
Definition is_detached_version (v : N) : bool := negb (N.land v 9223372036854775808 =? 0).

(* Display for u64: shortest decimal.  The fuel is the number of digits of the
   largest value. *)
Fixpoint to_dec (fuel : nat) (n : N) : str :=
  match fuel with
  | O => []
  | S k => if n <? 10 then [48 + n] else to_dec k (n / 10) ++ [48 + n mod 10]
  end.
Definition dec (n : N) : str := to_dec 20 n.
(* {:020}: pad with '0' on the left *)
Definition pad20 (s : str) : str := repeat 48 (20 - length s) ++ s.

Inductive scheme := V1 | V2.
Definition scheme_eqb (a b : scheme) : bool := match a, b with V1, V1 | V2, V2 => true | _, _ => false end.
(* commit.rs:78-100; u64::MAX - version does not underflow *)
Definition manifest_name (s : scheme) (v : N) : str :=
  if is_detached_version v then detached_prefix :: dec v ++ dot :: manifest_ext
  else match s with
       | V1 => dec v ++ dot :: manifest_ext
       | V2 => pad20 (dec (u64_max - v)) ++ dot :: manifest_ext
       end.

(* str::split_once('.') *)
Fixpoint split_once (s : str) : option (str * str) :=
  match s with
  | [] => None
  | c :: t => if c =? dot then Some ([], t) else match split_once t with Some (a, b) => Some (c :: a, b) | None => None end
  end.
(* u64::from_str: an optional '+', at least one digit, no overflow *)
Fixpoint parse_digits (acc : N) (s : str) : option N :=
  match s with
  | [] => Some acc
  | c :: t => if (48 <=? c) && (c <=? 57)
              then let acc' := acc * 10 + (c - 48) in if u64_max <? acc' then None else parse_digits acc' t
              else None
  end.
Definition parse_u64 (s : str) : option N :=
  match s with
  | [] => None
  | c :: t => if c =? 43 then match t with [] => None | _ => parse_digits 0 t end else parse_digits 0 s
  end.
(* commit.rs:102-111 *)
Definition parse_version (s : scheme) (name : str) : option N :=
  let file_number := obind (split_once name) (fun '(v, _) => parse_u64 v) in
  match s with V1 => file_number | V2 => omap (fun v => u64_max - v) file_number end.
(* str::ends_with *)
Definition ends_with (name suffix : str) : bool :=
  (length suffix <=? length name)%nat && str_eqb (skipn (length name - length suffix) name) suffix.
(* commit.rs:113-127 *)
Definition detect_scheme (name : str) : option scheme :=
  match name with
  | c :: _ => if c =? detached_prefix then Some V2
              else if ends_with name manifest_ext
                   then Some (if (length name =? 20 + 1 + length manifest_ext)%nat then V2 else V1)
                   else None
  | [] => None
  end.
(* commit.rs:129-137 *)
Definition detect_scheme_staging (name : str) : scheme :=
  match nth_error name 20 with Some c => if c =? dot then V2 else V1 | None => V1 end.

(* ---- resolving the latest manifest ---- *)
Inductive lres := Found (v : N) (name : str) (s : scheme) | NotFound | LErr | LPanic.

(* commit.rs:292-352: local directories; entries in any order *)
Fixpoint local_scan (entries : list str) (sch : option scheme) (latest : option (N * str)) : lres :=
  match entries with
  | [] => match latest, sch with
          | Some (v, n), Some s => Found v n s
          | Some _, None => LPanic
          | None, _ => NotFound
          end
  | f :: t =>
      match detect_scheme f with
      | None => local_scan t sch latest
      | Some es =>
          if match sch with Some s => negb (scheme_eqb s es) | None => false end then LErr
          else let sch' := match sch with Some s => Some s | None => Some es end in
               match parse_version es f with
               | None => local_scan t sch' latest
               | Some v => local_scan t sch' (match latest with
                                              | Some (lv, ln) => if lv <? v then Some (v, f) else Some (lv, ln)
                                              | None => Some (v, f)
                                              end)
               end
      end
  end.
Definition current_manifest_local (entries : list str) : lres := local_scan entries None None.

(* the names with a recognised scheme, in listing order (commit.rs:204-211) *)
Fixpoint valid_manifests (l : list str) : list (scheme * str) :=
  match l with
  | [] => []
  | f :: t => match detect_scheme f with Some s => (s, f) :: valid_manifests t | None => valid_manifests t end
  end.
(* commit.rs:224-246: the sanity check only warns, but unwraps the versions it parses *)
Fixpoint sanity (v : N) (l : list (scheme * str)) : bool :=
  match l with
  | [] => true
  | (V1, _) :: _ => true
  | (V2, f) :: t => match parse_version V2 f with
                    | None => false
                    | Some n => if v <=? n then true else sanity v t
                    end
  end.
(* commit.rs:260-276 *)
Fixpoint v1_scan (cur : N) (name : str) (l : list (scheme * str)) : lres :=
  match l with
  | [] => Found cur name V1
  | (V2, _) :: _ => LErr
  | (V1, f) :: t => match parse_version V1 f with
                    | None => LPanic
                    | Some v => if cur <? v then v1_scan v f t else v1_scan cur name t
                    end
  end.
Definition with_scheme (s : scheme) (r : lres) : lres := match r with Found v n _ => Found v n s | r => r end.
(* commit.rs:193-290.  `ordered`: object_store.list_is_lexically_ordered.
   `local`: the answer of current_manifest_local when the store is local. *)
Definition current_manifest_path (is_local ordered : bool) (entries : list str) : lres :=
  match (if is_local then current_manifest_local entries else NotFound) with
  | Found v n s => Found v n s
  | LPanic => LPanic
  | _ =>
      match valid_manifests entries with
      | [] => NotFound
      | (s, f) :: rest =>
          match parse_version s f with
          | None => LPanic
          | Some v =>
              match s, ordered with
              | V2, true => if sanity v (firstn 999 rest) then Found v f V2 else LPanic
              | _, _ => with_scheme s (v1_scan v f rest)
              end
          end
      end
  end.

(* byte order of names, used by the listing of object stores *)
Fixpoint str_lt (a b : str) : Prop :=
  match a, b with
  | _, [] => False
  | [], _ :: _ => True
  | x :: a', y :: b' => x < y \/ x = y /\ str_lt a' b'
  end.
