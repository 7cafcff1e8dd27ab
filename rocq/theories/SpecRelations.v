(** Specification: which values the relations accept (from the documentation of
    /repo/sqlpuzzle/relations.py) and when a value of a list matches a cell. *)
From Verif Require Import Base NumFmt Value SpecLogic.
Open Scope N_scope.

Definition is_text (v : val) := exists s, v = VStr s.
Definition is_number (v : val) := (exists z, v = VInt z) \/ (exists x, v = VFloat x) \/ (exists x, v = VDec x).
Definition is_boolean (v : val) := exists b, v = VBool b.
Definition is_temporal (v : val) := (exists d, v = VDate d) \/ (exists d t, v = VDatetime d t).
(** list, tuple, set, frozenset, range, generator; also str, bytes and dict, which Python can iterate. *)
Definition is_iterable (v : val) :=
  (exists k l, v = VSeq k l) \/ is_text v \/ (exists b, v = VBytes b) \/ (exists l, v = VDict l).
(** Anything of the library: custom SQL, V, R, subselects, functions ... *)
Definition is_sql_object (v : val) := is_sql v = true.

Definition documented (k : relk) (v : val) : Prop :=
  match k with
  | REq | RNe => is_text v \/ is_number v \/ is_boolean v \/ is_temporal v
  | RGt | RGe | RLt | RLe => is_text v \/ is_number v \/ is_temporal v
  | RLike | RNotLike | RRegexp => is_text v
  | RIn | RNotIn => is_iterable v
  | RIs | RIsNot => v = VNone \/ is_boolean v
  end.

(** A list element matches a cell: None matches NULL, another element matches the
    cell its literal denotes. [lt v] is the literal of [v], [m] the cell it denotes. *)
Definition matches {X} (lt : val -> str) (m : str -> option X) (v : val) (cell : option X) : Prop :=
  match v with
  | VNone => cell = None
  | _ => exists x, cell = Some x /\ m (lt v) = Some x
  end.
