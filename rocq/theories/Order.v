(** Order of sqlpuzzle objects: /repo/sqlpuzzle/_common/object.py:7-34 (Object.__lt__ and
    functools.total_ordering, which adds the three other methods). *)
From Verif Require Import Base Value Eq Render.
Open Scope N_scope.

(** object.py:29-34: Object.__lt__.  [None] is NotImplemented (the result of super().__lt__). *)
Definition obj_lt (E : env) (a b : val) : res (option bool) :=
  match b with
  | VStr s => do x <- text E a; Ok (Some (sltb x s))
  | _ => if is_sql b then do x <- text E a; do y <- text E b; Ok (Some (sltb x y)) else Ok None
  end.
(** functools._gt_from_lt: [not (self < other) and self != other]; != is the inverse of ==. *)
Definition obj_gt (E : env) (a b : val) : res (option bool) :=
  do l <- obj_lt E a b;
  match l with
  | None => Ok None
  | Some true => Ok (Some false)
  | Some false => do e <- py_eq E a b; Ok (Some (negb e))
  end.
(** functools._le_from_lt: [self < other or self == other]. *)
Definition obj_le (E : env) (a b : val) : res (option bool) :=
  do l <- obj_lt E a b;
  match l with
  | None => Ok None
  | Some true => Ok (Some true)
  | Some false => do e <- py_eq E a b; Ok (Some e)
  end.
(** functools._ge_from_lt: [not (self < other)]. *)
Definition obj_ge (E : env) (a b : val) : res (option bool) :=
  do l <- obj_lt E a b; Ok (option_map negb l).

Inductive cmpop := OLt | OGt | OLe | OGe.
Definition mirror (o : cmpop) : cmpop := match o with OLt => OGt | OGt => OLt | OLe => OGe | OGe => OLe end.
Definition obj_cmp (E : env) (o : cmpop) : val -> val -> res (option bool) :=
  match o with OLt => obj_lt E | OGt => obj_gt E | OLe => obj_le E | OGe => obj_ge E end.

(** The class of the second object is a proper subclass of that of the first one:
    relations.py:89-259, sqlvalue.py:130, functions.py:112, tables.py:24. *)
Definition rel_subclass (k k' : relk) : bool :=
  match k, k' with
  | REq, RNe | RGt, RGe | RGt, RLt | RGt, RLe | RLike, RNotLike | RIn, RNotIn | RIs, RIsNot => true
  | _, _ => false
  end.
Definition subclass (a b : val) : bool :=
  match a, b with
  | VRel k _, VRel k' _ => rel_subclass k k'
  | VSqlV _, VSqlR _ => true
  | VConcat _, VGroupConcat _ _ _ => true
  | VCond KWhere _ _ _, VCond KOn _ _ _ => true
  | _, _ => false
  end.

(** Python's [a o b]: the method of the left operand, then the mirrored method of the
    right one; the right one first if its class is a proper subclass.  Only
    comparisons with at least one sqlpuzzle object are modelled; a TypeError if
    both methods return NotImplemented. *)
Definition py_cmp (E : env) (o : cmpop) (a b : val) : res bool :=
  let left := if is_sql a then obj_cmp E o a b else Ok None in
  let right := if is_sql b then obj_cmp E (mirror o) b a else Ok None in
  let (first, second) := if subclass a b then (right, left) else (left, right) in
  if negb (is_sql a) && negb (is_sql b) then Err EUnmodelled
  else do x <- first;
       match x with
       | Some r => Ok r
       | None => do y <- second; match y with Some r => Ok r | None => Err ETypeError end
       end.
