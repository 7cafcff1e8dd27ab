(** Vocabulary for the property about the operators & and |. *)
From Verif Require Import Base Value Build SpecLogic SpecConds SpecRelations.

(** An expression of &, | and objects: Q(...), Not(...), select(...), anything. *)
Inductive pyexpr := PObj (v : val) | POp (o : bop) (l r : pyexpr).
Fixpoint objects (e : pyexpr) : list val := match e with PObj v => [v] | POp _ l r => objects l ++ objects r end.
Fixpoint first_object (e : pyexpr) : val := match e with PObj v => v | POp _ l _ => first_object l end.

(** What where and Q make, and what Q objects combine to. *)
Definition a_condition (v : val) : Prop :=
  (exists k c r x, v = VCond k c r x) \/ (exists l, v = VConds l) \/ (exists o a b, v = VCoC o a b).
Definition a_select (v : val) : Prop := (exists q, v = VSelect q) \/ (exists t a b, v = VUnion t a b).

(** Python accepts the expression: each & and | is between conditions, or has a select or
    union on the left and an SQL object on the right. *)
Inductive fits : pyexpr -> Prop :=
| fi_obj : forall v, fits (PObj v)
| fi_conditions : forall o l r, Forall a_condition (objects l) -> Forall a_condition (objects r) -> fits (POp o l r)
| fi_selects : forall o l r, fits l -> fits r -> a_select (first_object l) -> (forall v, r = PObj v -> is_sql_object v) -> fits (POp o l r).

(** Python evaluates both operands, then the operator. *)
Fixpoint evaluated (e : pyexpr) : res val :=
  match e with
  | PObj v => Ok v
  | POp o l r => do a <- evaluated l; do b <- evaluated r; py_binop o a b
  end.
(** What an expression of conditions says: & is AND, | is OR. *)
Fixpoint says_expr (t : val -> t3) (e : pyexpr) : t3 :=
  match e with
  | PObj v => meaning t v
  | POp OpAnd l r => and3 (says_expr t l) (says_expr t r)
  | POp OpOr l r => or3 (says_expr t l) (says_expr t r)
  end.
