(** Specification: what the functions of the module make, from their names and documentation strings. *)
From Verif Require Import Base Value.
Open Scope N_scope.

(** Name, function it makes, with DISTINCT or not: Function AVG(DISTINCT expr) and so on. *)
Definition aggregates : list (str * aggk * bool) :=
  [ (lit "avg", FAvg, false); (lit "avg_distinct", FAvg, true);
    (lit "count", FCount, false); (lit "count_distinct", FCount, true);
    (lit "max", FMax, false); (lit "max_distinct", FMax, true);
    (lit "min", FMin, false); (lit "min_distinct", FMin, true);
    (lit "sum", FSum, false); (lit "sum_distinct", FSum, true) ].
Definition distinct_word (d : bool) : str := if d then lit "DISTINCT " else [].

(** The calls f(e), f(expr=e) and, of the functions that count, f(). *)
Inductive expr_given (k : aggk) : list val -> list (str * val) -> val -> Prop :=
| eg_position : forall e, expr_given k [e] [] e
| eg_keyword : forall e, expr_given k [] [(lit "expr", e)] e
| eg_nothing : k = FCount -> expr_given k [] [] VNone.
(** The calls convert(e), convert(e, t), and with keywords. *)
Inductive convert_given : list val -> list (str * val) -> val -> val -> Prop :=
| cg_one : forall e, convert_given [e] [] e VNone
| cg_both : forall e t, convert_given [e; t] [] e t
| cg_type : forall e t, convert_given [e] [(lit "type_", t)] e t
| cg_expr : forall e, convert_given [] [(lit "expr", e)] e VNone
| cg_keywords : forall e t, convert_given [] [(lit "expr", e); (lit "type_", t)] e t
| cg_swapped : forall e t, convert_given [] [(lit "type_", t); (lit "expr", e)] e t.
(** The calls V(v), V(value=v), and so of R. *)
Inductive value_given : list val -> list (str * val) -> val -> Prop :=
| vg_position : forall v, value_given [v] [] v
| vg_keyword : forall v, value_given [] [(lit "value", v)] v.
