(** Model: the classes of exceptions.py, except clauses, and Object.__repr__. *)
From Verif Require Import Base Value Render.
Open Scope N_scope.

(** The exception classes of exceptions.py and the Python classes the library raises. *)
Inductive exc_class :=
| XBaseException | XException | XTypeError | XAttributeError
| XSqlPuzzle          (* SqlPuzzleException         exceptions.py:1-13  *)
| XConfirm            (* ConfirmException           exceptions.py:16-24 *)
| XConfirmUpdate      (* ConfirmUpdateAllException  exceptions.py:27-34 *)
| XConfirmDelete      (* ConfirmDeleteAllException  exceptions.py:37-44 *)
| XInvalidArgument    (* InvalidArgumentException   exceptions.py:47-67 *)
| XInvalidQuery.      (* InvalidQueryException      exceptions.py:70-86 *)
(** The class named between the brackets of the class statement: exceptions.py:1, 16, 27, 37, 47, 70. *)
Definition base_class (c : exc_class) : option exc_class :=
  match c with
  | XBaseException => None
  | XException => Some XBaseException
  | XTypeError | XAttributeError | XSqlPuzzle => Some XException
  | XConfirm | XInvalidArgument => Some XSqlPuzzle
  | XConfirmUpdate | XConfirmDelete => Some XConfirm
  | XInvalidQuery => Some XInvalidArgument
  end.
Definition same_class (c d : exc_class) : bool :=
  match c, d with
  | XBaseException, XBaseException | XException, XException | XTypeError, XTypeError | XAttributeError, XAttributeError | XSqlPuzzle, XSqlPuzzle
  | XConfirm, XConfirm | XConfirmUpdate, XConfirmUpdate | XConfirmDelete, XConfirmDelete | XInvalidArgument, XInvalidArgument | XInvalidQuery, XInvalidQuery => true
  | _, _ => false
  end.
(** issubclass(c, d): along the bases, of which there are at most five. *)
Fixpoint subclass_in (fuel : nat) (c d : exc_class) : bool :=
  same_class c d || match fuel, base_class c with S n, Some c' => subclass_in n c' d | _, _ => false end.
Definition issubclass (c d : exc_class) : bool := subclass_in 5 c d.
(** The class of an exception of the model. *)
Definition class_of (e : exn) : exc_class :=
  match e with
  | EInvalidArgument => XInvalidArgument | EInvalidQuery => XInvalidQuery | ESqlPuzzle => XSqlPuzzle
  | EConfirmDelete => XConfirmDelete | EConfirmUpdate => XConfirmUpdate
  | ETypeError => XTypeError | EAttributeError => XAttributeError | EException => XException
  | EUnmodelled => XBaseException      (* simplification: an exception of foreign code, about which nothing is known *)
  end.
(** try: x  except c: handler *)
Definition try_except {A} (x : res A) (c : exc_class) (handler : exn -> res A) : res A :=
  match x with Ok a => Ok a | Err e => if issubclass (class_of e) c then handler e else Err e end.

(** __class__.__name__ of the library's objects: relations.py, conditions.py:28, 93, 119, 138,
    tables.py:24, values.py:8, where.py:11, functions.py:66-163, customsql.py:7,
    sqlvalue.py:24, 130, select.py:10, union.py:13, insert.py:37, update.py:21, delete.py:21.
    Simplification: conditions inside HAVING are of class HavingCondition (having.py:6). *)
Definition relation_class (k : relk) : str :=
  match k with
  | REq => lit "EQ" | RNe => lit "NE" | RGt => lit "GT" | RGe => lit "GE" | RLt => lit "LT" | RLe => lit "LE"
  | RLike => lit "LIKE" | RNotLike => lit "NOT_LIKE" | RRegexp => lit "REGEXP" | RIn => lit "IN" | RNotIn => lit "NOT_IN"
  | RIs => lit "IS" | RIsNot => lit "IS_NOT"
  end.
Definition class_name (v : val) : str :=
  match v with
  | VCustom _ => lit "CustomSql" | VSqlV _ => lit "SqlValue" | VSqlR _ => lit "SqlReference"
  | VRel k _ => relation_class k
  | VCond KWhere _ _ _ => lit "Condition" | VCond KOn _ _ _ => lit "OnCondition"
  | VValue _ _ => lit "Value" | VConds _ => lit "Conditions" | VCoC _ _ _ => lit "ConditionsOfConditions"
  | VNot _ => lit "Not" | VExists _ => lit "Exists"
  | VAgg FAvg _ _ => lit "Avg" | VAgg FCount _ _ => lit "Count" | VAgg FMax _ _ => lit "Max" | VAgg FMin _ _ => lit "Min" | VAgg FSum _ _ => lit "Sum"
  | VConcat _ => lit "Concat" | VGroupConcat _ _ _ => lit "GroupConcat" | VConvert _ _ => lit "Convert"
  | VSelect _ => lit "Select" | VUnion _ _ _ => lit "Union" | VInsert _ => lit "Insert" | VUpdate _ => lit "Update" | VDelete _ => lit "Delete"
  | _ => []
  end.
(** Object.__repr__: object.py:9-10. *)
Definition py_repr (E : env) (v : val) : res str :=
  do t <- text E v; Ok (lit "<" ++ class_name v ++ lit ": " ++ t ++ lit ">").
