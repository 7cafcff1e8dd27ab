(** Specification: SQL's three-valued logic, IN / IS NULL, and the precedence of
    NOT, AND and OR.  Independent of the model. *)
From Verif Require Import Base.
Open Scope N_scope.

(** Truth values: Some true, Some false, None = unknown. *)
Definition t3 := option bool.
Definition and3 (a b : t3) : t3 :=
  match a, b with
  | Some false, _ | _, Some false => Some false
  | Some true, Some true => Some true
  | _, _ => None
  end.
Definition or3 (a b : t3) : t3 :=
  match a, b with
  | Some true, _ | _, Some true => Some true
  | Some false, Some false => Some false
  | _, _ => None
  end.
Definition not3 (a : t3) : t3 := match a with Some b => Some (negb b) | None => None end.
(** A WHERE clause keeps a row only if the condition is true. *)
Definition selects (a : t3) : Prop := a = Some true.

(** ** Conditions on one column.  [X] is the type of non-NULL database values, a
    cell is [option X] (None = NULL). *)
Section Cells.
  Context {X : Type} (eqX : X -> X -> bool).
  Definition eq3 (a b : option X) : t3 :=
    match a, b with Some x, Some y => Some (eqX x y) | _, _ => None end.
  (** x IN (a, b, ...) is x = a OR x = b OR ... *)
  Definition in3 (x : option X) (l : list (option X)) : t3 :=
    fold_right (fun a t => or3 (eq3 x a) t) (Some false) l.
  Definition is_null (x : option X) : t3 := Some (match x with None => true | _ => false end).

  (** The forms a condition on one column takes, how they are written, what they mean.
      [m] gives the cell a literal text denotes. *)
  Inductive cond1 :=
  | CIn (l : list str) | CNotIn (l : list str) | CIsNull | CIsNotNull
  | CEither (a b : cond1) | CBoth (a b : cond1).
  Fixpoint written (col : str) (c : cond1) : str :=
    match c with
    | CIn l => col ++ lit " IN (" ++ sjoin (lit ", ") l ++ lit ")"
    | CNotIn l => col ++ lit " NOT IN (" ++ sjoin (lit ", ") l ++ lit ")"
    | CIsNull => col ++ lit " IS NULL"
    | CIsNotNull => col ++ lit " IS NOT NULL"
    | CEither a b => lit "(" ++ written col a ++ lit " OR " ++ written col b ++ lit ")"
    | CBoth a b => lit "(" ++ written col a ++ lit " AND " ++ written col b ++ lit ")"
    end.
  Fixpoint truth1 (m : str -> option X) (x : option X) (c : cond1) : t3 :=
    match c with
    | CIn l => in3 x (map m l)
    | CNotIn l => not3 (in3 x (map m l))
    | CIsNull => is_null x
    | CIsNotNull => not3 (is_null x)
    | CEither a b => or3 (truth1 m x a) (truth1 m x b)
    | CBoth a b => and3 (truth1 m x a) (truth1 m x b)
    end.
End Cells.

(** ** Expressions with NOT, AND, OR over atoms, as a sequence of items. *)
Section Bool.
  Context {A : Type}.
  Inductive item := IAtom (a : A) | INot | IAnd | IOr | ILp | IRp.
  Inductive bexp := BAtom (a : A) | BNot (e : bexp) | BAnd (a b : bexp) | BOr (a b : bexp).
  Fixpoint bval (v : A -> t3) (e : bexp) : t3 :=
    match e with
    | BAtom a => v a
    | BNot e => not3 (bval v e)
    | BAnd a b => and3 (bval v a) (bval v b)
    | BOr a b => or3 (bval v a) (bval v b)
    end.
  (** The grammar of search conditions (SQL-92, 8.12):
      primary ::= atom | ( search_condition )       factor ::= [NOT] primary
      term ::= factor | term AND factor             search_condition ::= term | search_condition OR term *)
  Inductive p_primary : list item -> bexp -> Prop :=
  | pp_atom : forall a, p_primary [IAtom a] (BAtom a)
  | pp_paren : forall s e, p_search s e -> p_primary (ILp :: s ++ [IRp]) e
  with p_factor : list item -> bexp -> Prop :=
  | pf_plain : forall s e, p_primary s e -> p_factor s e
  | pf_not : forall s e, p_primary s e -> p_factor (INot :: s) (BNot e)
  with p_term : list item -> bexp -> Prop :=
  | pt_one : forall s e, p_factor s e -> p_term s e
  | pt_and : forall s t e f, p_term s e -> p_factor t f -> p_term (s ++ IAnd :: t) (BAnd e f)
  with p_search : list item -> bexp -> Prop :=
  | ps_one : forall s e, p_term s e -> p_search s e
  | ps_or : forall s t e f, p_search s e -> p_term t f -> p_search (s ++ IOr :: t) (BOr e f).

  (** How the items are written. *)
  Definition item_text (w : A -> str) (i : item) : str :=
    match i with
    | IAtom a => w a
    | INot => lit "NOT" | IAnd => lit " AND " | IOr => lit " OR " | ILp => lit "(" | IRp => lit ")"
    end.
  Definition items_text (w : A -> str) (l : list item) : str := flat_map (item_text w) l.
End Bool.
Arguments item : clear implicits.
Arguments bexp : clear implicits.
