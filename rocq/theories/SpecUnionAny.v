(** Specification: UNIONs of any selects that are read (C59), grouped ones included, whatever the server answers to one SELECT.
    SpecUnion.v: how a server reads a union; SpecBackends.v: expressions of selects combined with & and |. *)
From Coq Require Import Permutation.
From Verif Require Import Base Value Render ParseArgs Build Queries SpecLex SpecRef SpecWhole SpecSql SpecServer SpecBackends SpecUnion.
Open Scope N_scope.

(** ** The server *)
Section Server.
  (** The tables it may answer to one SELECT. *)
  Context (rows : statement -> list (list literal) -> Prop).
  (** From left to right; UNION ALL keeps all rows, UNION one of each; the rows come in any order. *)
  Inductive unions_of : statement -> list (bool * statement) -> list (list literal) -> Prop :=
  | uo_one : forall st a out, bare st -> rows st a -> Permutation out a -> unions_of st [] out
  | uo_all : forall st l a st' c out, unions_of st l a -> bare st' -> width st' = width st -> rows st' c ->
      Permutation out (a ++ c) -> unions_of st (l ++ [(true, st')]) out
  | uo_distinct : forall st l a st' c out, unions_of st l a -> bare st' -> width st' = width st -> rows st' c ->
      NoDup out -> (forall x, In x out <-> In x a \/ In x c) -> unions_of st (l ++ [(false, st')]) out.
  (** A table the server may answer to the select, executed on its own. *)
  Definition answered (E : env) (q : selq val) (out : list (list literal)) : Prop :=
    exists t st, text E (VSelect q) = Ok t /\ understood (dialect_of (e_be E)) t = Some st /\ rows st out.
End Server.

(** ** The operands: [n] columns, functions or names that are not stars; no order_by, limit, offset and for_update. *)
Definition any_operand (b : backend) (n : nat) (q : selq val) : Prop :=
  select_fine b q /\ List.length (s_cols q) = n /\
  Forall (fun c => forall p, path_of (fst c) = Some p -> last p [] <> lit "*") (s_cols q) /\
  s_order q = [] /\ s_limit q = MkLimits None None /\ s_forupd q = false.
(** How often [x] is in each of the tables. *)
Fixpoint counted_in (x : list literal) (e : uexpr (list (list literal))) : uexpr nat :=
  match e with ULeaf t => ULeaf (count x t) | UOp o l r => UOp o (counted_in x l) (counted_in x r) end.
