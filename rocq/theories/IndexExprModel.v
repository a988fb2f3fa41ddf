(* Filter expressions answered by scalar indices:
   rust/lance-index/src/scalar/expression.rs and the to_expr methods of
   rust/lance-index/src/scalar.rs.

   DataFusion's Expr is modelled by the shapes that visit_node (701-715) tells
   apart; every other shape (LIKE, casts, arithmetic, ...) is [EOpaque n].  Values
   are [option Z] (ScalarModel); a boolean is Some 1 / Some 0 / None (unknown).
   Columns are numbers.  safe_coerce_scalar (lance-datafusion/src/expr.rs) is only
   asked whether the literal is representable in the column's type
   ([ix_fits]); a representable literal is taken to keep its value (C71 says for
   which types that is so). *)
From Coq Require Import List Arith NArith ZArith Bool.
From Verif Require Import Lib AMap RowIdsModel SerdeModel TreeMapModel ScalarModel.
Import ListNotations.

Inductive cmp_op := OLt | OLe | OGt | OGe | OEq | ONe.
(* an element of an IN list: a literal, or any other expression *)
Inductive atom := ALit (v : value) | AOther (n : N).
Inductive expr :=
| ECol (c : N)
| ELit (v : value)
| ECmp (o : cmp_op) (a b : expr)
| EAnd (a b : expr)
| EOr (a b : expr)
| ENot (a : expr)
| EBetween (negated : bool) (a lo hi : expr)
| EIn (negated : bool) (a : expr) (l : list atom)
| EIsNull (a : expr)
| EIsNotNull (a : expr)
| EIsTrue (a : expr)
| EIsFalse (a : expr)
| EHas (all : bool) (c : N) (labels : list value)   (* array_has_all / array_has_any (column, literal list) *)
| EOpaque (n : N).

(* ---- what DataFusion computes for an expression on a row (SQL semantics) ---- *)
Record row := { r_col : N -> value; r_list : N -> option (list value); r_other : N -> value }.
Definition vb (v : value) : option bool := match v with None => None | Some z => Some (negb (z =? 0)%Z) end.
Definition bv (b : option bool) : value := match b with None => None | Some true => Some 1%Z | Some false => Some 0%Z end.
Definition knot (a : option bool) : option bool := omap negb a.
Definition kand (a b : option bool) : option bool :=
  match a, b with
  | Some false, _ | _, Some false => Some false
  | Some true, Some true => Some true
  | _, _ => None
  end.
Definition kor (a b : option bool) : option bool :=
  match a, b with
  | Some true, _ | _, Some true => Some true
  | Some false, Some false => Some false
  | _, _ => None
  end.
Definition cmpz (o : cmp_op) (x y : Z) : bool :=
  match o with
  | OLt => (x <? y)%Z | OLe => (x <=? y)%Z | OGt => (y <? x)%Z | OGe => (y <=? x)%Z
  | OEq => (x =? y)%Z | ONe => negb (x =? y)%Z
  end.
Definition cmpv (o : cmp_op) (x y : value) : option bool :=
  match x, y with Some a, Some b => Some (cmpz o a b) | _, _ => None end.
Definition atom_val (r : row) (a : atom) : value := match a with ALit v => v | AOther n => r_other r n end.
(* x IN (l): true if equal to an element, else unknown if x or an element is null *)
Definition in3 (x : value) (l : list value) : option bool :=
  match x with
  | None => None
  | Some _ => if existsb (veq x) l then Some true else if existsb is_none l then None else Some false
  end.
Definition neg_if (n : bool) (b : option bool) : option bool := if n then knot b else b.
Definition has3 (all : bool) (o : option (list value)) (ls : list value) : option bool :=
  match o with
  | None => None
  | Some l => let has v := existsb (veq v) l in Some (if all then forallb has ls else existsb has ls)
  end.
Fixpoint eval (r : row) (e : expr) : value :=
  match e with
  | ECol c => r_col r c
  | ELit v => v
  | ECmp o a b => bv (cmpv o (eval r a) (eval r b))
  | EAnd a b => bv (kand (vb (eval r a)) (vb (eval r b)))
  | EOr a b => bv (kor (vb (eval r a)) (vb (eval r b)))
  | ENot a => bv (knot (vb (eval r a)))
  | EBetween n a lo hi => bv (neg_if n (kand (cmpv OGe (eval r a) (eval r lo)) (cmpv OLe (eval r a) (eval r hi))))
  | EIn n a l => bv (neg_if n (in3 (eval r a) (map (atom_val r) l)))
  | EIsNull a => bv (Some (is_none (eval r a)))
  | EIsNotNull a => bv (Some (negb (is_none (eval r a))))
  | EIsTrue a => bv (Some (match vb (eval r a) with Some true => true | _ => false end))
  | EIsFalse a => bv (Some (match vb (eval r a) with Some false => true | _ => false end))
  | EHas all c ls => bv (has3 all (r_list r c) ls)
  | EOpaque n => r_other r n
  end.
(* FilterExec keeps the rows on which the predicate is true *)
Definition passes (r : row) (e : expr) : bool := match vb (eval r e) with Some true => true | _ => false end.

(* ---- expression.rs ---- *)
(* SargableQuery / LabelListQuery *)
Inductive aquery := ASarg (q : query) | ALabel (q : label_query).
(* 352-357 ScalarIndexExpr *)
Inductive sidx := SNot (a : sidx) | SAnd (a b : sidx) | SOr (a b : sidx) | SQuery (c : N) (q : aquery).
(* 51-56 IndexedExpression *)
Record iexpr := { scalar_query : option sidx; refine_expr : option expr }.
(* IndexInformationProvider 720-723: the column's type and query parser *)
Inductive parser := PSargable | PLabelList.
Record index_info := { ix_parser : parser; ix_bool : bool; ix_fits : value -> bool; ix_fits_list : list value -> bool }.
Definition info := N -> option index_info.

(* 218-223, 226-231 *)
Definition refine_only (e : expr) : iexpr := {| scalar_query := None; refine_expr := Some e |}.
Definition index_query (c : N) (q : aquery) : iexpr := {| scalar_query := Some (SQuery c q); refine_expr := None |}.
(* 238-251; the panic on an empty node is unreachable and given as None *)
Definition maybe_not (e : iexpr) : option iexpr :=
  match scalar_query e, refine_expr e with
  | Some _, Some _ => None
  | Some q, None => Some {| scalar_query := Some (SNot q); refine_expr := None |}
  | None, Some r => Some {| scalar_query := None; refine_expr := Some (ENot r) |}
  | None, None => None
  end.
(* 257-279 *)
Definition join {X} (f : X -> X -> X) (a b : option X) : option X :=
  match a, b with Some x, Some y => Some (f x y) | Some x, None => Some x | None, Some y => Some y | None, None => None end.
Definition ie_and (a b : iexpr) : iexpr :=
  {| scalar_query := join SAnd (scalar_query a) (scalar_query b); refine_expr := join EAnd (refine_expr a) (refine_expr b) |}.
(* 287-322 *)
Definition maybe_or (a b : iexpr) : option iexpr :=
  match scalar_query a, scalar_query b, refine_expr a, refine_expr b with
  | Some p, Some q, None, None => Some {| scalar_query := Some (SOr p q); refine_expr := None |}
  | _, _, _, _ => None
  end.
(* 324-335 *)
Definition ie_refine (a : iexpr) (e : expr) : iexpr :=
  {| scalar_query := scalar_query a; refine_expr := Some (match refine_expr a with Some r => EAnd r e | None => e end) |}.

(* 84-153 SargableQueryParser, 156-215 LabelListQueryParser *)
Definition p_between (i : index_info) (c : N) (lo hi : value) : option iexpr :=
  match ix_parser i with PSargable => Some (index_query c (ASarg (QRange (VInc lo) (VInc hi)))) | PLabelList => None end.
Definition p_in_list (i : index_info) (c : N) (l : list value) : option iexpr :=
  match ix_parser i with PSargable => Some (index_query c (ASarg (QIn l))) | PLabelList => None end.
Definition p_is_bool (i : index_info) (c : N) (b : bool) : option iexpr :=
  match ix_parser i with PSargable => Some (index_query c (ASarg (QEq (Some (if b then 1 else 0)%Z)))) | PLabelList => None end.
Definition p_is_null (i : index_info) (c : N) : option iexpr :=
  match ix_parser i with PSargable => Some (index_query c (ASarg QNull)) | PLabelList => None end.
Definition p_comparison (i : index_info) (c : N) (v : value) (o : cmp_op) : option iexpr :=
  match ix_parser i with
  | PSargable => Some (index_query c (ASarg
      match o with
      | OLt => QRange VUnb (VExc v)
      | OLe => QRange VUnb (VInc v)
      | OGt => QRange (VExc v) VUnb
      | OGe => QRange (VInc v) VUnb
      | OEq | ONe => QEq v
      end))
  | PLabelList => None
  end.
Definition p_scalar_fn (i : index_info) (c : N) (all : bool) (ls : list value) : option iexpr :=
  match ix_parser i with
  | PSargable => None
  | PLabelList => if ix_fits_list i ls then Some (index_query c (ALabel (if all then HasAll ls else HasAny ls))) else None
  end.

(* 438-478 *)
Definition indexed_column (f : info) (e : expr) : option (N * index_info) :=
  match e with ECol c => omap (fun i => (c, i)) (f c) | _ => None end.
Definition maybe_scalar (i : index_info) (e : expr) : option value :=
  match e with ELit v => if ix_fits i v then Some v else None | _ => None end.
Definition maybe_scalar_list (i : index_info) (l : list atom) : option (list value) :=
  sequence_opt (map (fun a => match a with ALit v => if ix_fits i v then Some v else None | AOther _ => None end) l).
Definition not_if (n : bool) (o : option iexpr) : option iexpr := if n then obind o maybe_not else o.

(* 480-495 *)
Definition visit_between (f : info) (n : bool) (a lo hi : expr) : option iexpr :=
  obind (indexed_column f a) (fun '(c, i) =>
  obind (maybe_scalar i lo) (fun l =>
  obind (maybe_scalar i hi) (fun h => not_if n (p_between i c l h)))).
(* 497-511 *)
Definition visit_in_list (f : info) (n : bool) (a : expr) (l : list atom) : option iexpr :=
  obind (indexed_column f a) (fun '(c, i) =>
  obind (maybe_scalar_list i l) (fun vs => not_if n (p_in_list i c vs))).
(* 513-537 visit_is_bool, visit_column *)
Definition visit_is_bool (f : info) (a : expr) (b : bool) : option iexpr :=
  obind (indexed_column f a) (fun '(c, i) => if ix_bool i then p_is_bool i c b else None).
(* 539-551 *)
Definition visit_is_null (f : info) (a : expr) (n : bool) : option iexpr :=
  obind (indexed_column f a) (fun '(c, i) => not_if n (p_is_null i c)).
(* 558-571; for != the caller negates (681) *)
Definition visit_comparison (f : info) (o : cmp_op) (a b : expr) : option iexpr :=
  obind (indexed_column f a) (fun '(c, i) =>
  obind (maybe_scalar i b) (fun v => p_comparison i c v o)).
(* derived PartialEq of Expr *)
Definition expr_eq_dec (a b : expr) : {a = b} + {a <> b}.
Proof.
  decide equality; try apply N.eq_dec; try apply bool_dec; try (decide equality; fail);
    try (apply list_eq_dec); try (decide equality; try apply N.eq_dec; decide equality; apply Z.eq_dec);
    decide equality; apply Z.eq_dec.
Defined.
Definition expr_eqb (a b : expr) : bool := if expr_eq_dec a b then true else false.
(* 573-628: (expr, low, high) *)
Definition maybe_between (a b : expr) : option (expr * expr * expr) :=
  match a, b with
  | ECmp OGe x y, ECmp OLe u w =>
      if expr_eqb x u then Some (x, y, w) else if expr_eqb y w then Some (y, u, x) else None
  | ECmp OLe x y, ECmp OGe u w =>
      if expr_eqb x u then Some (x, w, y) else if expr_eqb y w then Some (y, x, u) else None
  | _, _ => None
  end.
(* 701-715 with visit_not 553-556, visit_and 630-653, visit_or 655-672,
   visit_binary_expr 674-688, visit_scalar_fn 690-699 *)
Fixpoint visit (f : info) (e : expr) : option iexpr :=
  match e with
  | EBetween n a lo hi => visit_between f n a lo hi
  | ECol _ => visit_is_bool f e true
  | EIn n a l => visit_in_list f n a l
  | EIsFalse a => visit_is_bool f a false
  | EIsTrue a => visit_is_bool f a true
  | EIsNull a => visit_is_null f a false
  | EIsNotNull a => visit_is_null f a true
  | ENot a => obind (visit f a) maybe_not
  | ECmp ONe a b => obind (visit_comparison f ONe a b) maybe_not
  | ECmp o a b => visit_comparison f o a b
  | EAnd a b =>
      match maybe_between a b with
      | Some (x, lo, hi) => visit_between f false x lo hi
      | None =>
          match visit f a, visit f b with
          | Some l, Some r => Some (ie_and l r)
          | Some l, None => Some (ie_refine l b)
          | None, Some r => Some (ie_refine r a)
          | None, None => None
          end
      end
  | EOr a b => match visit f a, visit f b with Some l, Some r => maybe_or l r | _, _ => None end
  | EHas all c ls => obind (f c) (fun i => p_scalar_fn i c all ls)
  | ELit _ | EOpaque _ => None
  end.
(* 725-730 *)
Definition apply_scalar_indices (f : info) (e : expr) : iexpr :=
  match visit f e with Some i => i | None => refine_only e end.

(* 391-418; [search c q] is the search of column c's index, None an error or panic *)
Fixpoint evaluate (search : N -> aquery -> option tmap) (s : sidx) : option mask :=
  match s with
  | SNot a => omap mask_not (evaluate search a)
  | SAnd a b => obind (evaluate search a) (fun x => omap (mask_and x) (evaluate search b))
  | SOr a b => obind (evaluate search a) (fun x => omap (mask_or x) (evaluate search b))
  | SQuery c q => omap from_allowed (search c q)
  end.

(* scalar.rs:338-383, 428-470 to_expr; None: the unwraps on an empty label list and
   on a null label (the list field is declared non-nullable) *)
Definition query_expr (c : N) (q : aquery) : option expr :=
  match q with
  | ASarg (QRange VUnb VUnb) => Some (ELit (Some 1%Z))
  | ASarg (QRange VUnb (VInc v)) => Some (ECmp OLe (ECol c) (ELit v))
  | ASarg (QRange VUnb (VExc v)) => Some (ECmp OLt (ECol c) (ELit v))
  | ASarg (QRange (VInc v) VUnb) => Some (ECmp OGe (ECol c) (ELit v))
  | ASarg (QRange (VInc v) (VInc w)) => Some (EBetween false (ECol c) (ELit v) (ELit w))
  | ASarg (QRange (VInc v) (VExc w)) => Some (EAnd (ECmp OGe (ECol c) (ELit v)) (ECmp OLt (ECol c) (ELit w)))
  | ASarg (QRange (VExc v) VUnb) => Some (ECmp OGt (ECol c) (ELit v))
  | ASarg (QRange (VExc v) (VInc w)) => Some (EAnd (ECmp OGt (ECol c) (ELit v)) (ECmp OLe (ECol c) (ELit w)))
  | ASarg (QRange (VExc v) (VExc w)) => Some (EAnd (ECmp OGt (ECol c) (ELit v)) (ECmp OLt (ECol c) (ELit w)))
  | ASarg (QIn vs) => Some (EIn false (ECol c) (map ALit vs))
  | ASarg QNull => Some (EIsNull (ECol c))
  | ASarg (QEq v) => Some (ECmp OEq (ECol c) (ELit v))
  | ALabel (HasAll ls) => if existsb is_none ls then None else match ls with [] => None | _ => Some (EHas true c ls) end
  | ALabel (HasAny ls) => if existsb is_none ls then None else match ls with [] => None | _ => Some (EHas false c ls) end
  end.
(* 420-436 *)
Fixpoint to_expr (s : sidx) : option expr :=
  match s with
  | SNot a => omap ENot (to_expr a)
  | SAnd a b => obind (to_expr a) (fun x => omap (EAnd x) (to_expr b))
  | SOr a b => obind (to_expr a) (fun x => omap (EOr x) (to_expr b))
  | SQuery c q => query_expr c q
  end.
