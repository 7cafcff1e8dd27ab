(** Specification: rows of UNIONs.  SpecSql.v: the server's SELECT; SpecBackends.v: expressions
    of selects combined with & and |; SpecProgramQ.v: programs that build a select. *)
From Coq Require Import Permutation.
From Verif Require Import Base Value Render ParseArgs Build Queries SpecLex SpecRef SpecHistory SpecArgs SpecWhole SpecSql SpecServer SpecProgram SpecProgramQ SpecBackends.
Open Scope N_scope.

(** ** The server *)
(** SELECT ... UNION [ALL] SELECT ... UNION [ALL] ...; [true] is UNION ALL. *)
Fixpoint p_unions (n : nat) (ls : list lexeme) : option (list (bool * statement)) :=
  match ls with
  | [] => Some []
  | _ =>
      match n with
      | O => None
      | S n =>
          let? r := keyword (lit "UNION") ls in
          let (all, r) := match keyword (lit "ALL") r with Some r' => (true, r') | None => (false, r) end in
          let? (st, r) := p_statement r in
          let? l := p_unions n r in Some ((all, st) :: l)
      end
  end.
Definition understood_union (d : dialect) (t : str) : option (statement * list (bool * statement)) :=
  let? (st, r) := p_statement (lexemes d t) in
  let? l := p_unions (List.length r) r in Some (st, l).

(** A SELECT without clauses that would concern the whole union. *)
Definition bare (st : statement) : Prop :=
  match st with StSelect _ _ _ _ _ _ [] None None false => True | _ => False end.
Definition width (st : statement) : nat :=
  match st with StSelect _ cols _ _ _ _ _ _ _ _ => List.length cols | _ => O end.
Section Server.
  Context (sv : server) (le : literal -> literal -> bool) (db : database).
  (** The rows of one SELECT, without the names of the columns. *)
  Definition rows_of (st : statement) (out : list (list literal)) : Prop :=
    exists named, answers sv le db st named /\ Forall2 (Forall2 (fun p x => snd p = Cell x)) named out.
  (** From left to right; UNION ALL keeps all rows, UNION one of each. *)
  Inductive union_answers : statement -> list (bool * statement) -> list (list literal) -> Prop :=
  | ua_one : forall st out, bare st -> rows_of st out -> union_answers st [] out
  | ua_all : forall st l a st' c out, union_answers st l a -> bare st' -> width st' = width st -> rows_of st' c ->
      Permutation out (a ++ c) -> union_answers st (l ++ [(true, st')]) out
  | ua_distinct : forall st l a st' c out, union_answers st l a -> bare st' -> width st' = width st -> rows_of st' c ->
      NoDup out -> (forall x, In x out <-> In x a \/ In x c) -> union_answers st (l ++ [(false, st')]) out.
End Server.

(** ** The program *)
(** One operand: the table, the calls and what each asks for. *)
Record operand_program := MkOperand { op_table : str; op_calls : list selop; op_given : list (asked_by where_item) }.
(** A column that is a name, not a star. *)
Definition cell_column (p : val * val) : Prop := exists c, fst p = VStr c /\ last (name_segments c) [] <> lit "*".
(** Calls of columns, from_ and where (see C71); [n] different columns. *)
Definition operand_ok (E : env) (b : backend) (n : nat) (P : operand_program) : Prop :=
  good_name (quote_of b) (op_table P) /\
  Forall2 (select_call b (where_asks E b) (op_table P) (supper E)) (op_calls P) (op_given P) /\
  In (SFrom [VStr (op_table P)] []) (op_calls P) /\
  Forall (fun op => match op with SColumns _ _ | SFrom _ _ | SWhere _ _ => True | _ => False end) (op_calls P) /\
  Forall cell_column (flat_map ab_columns (op_given P)) /\
  exists cols, first_occurrences (flat_map ab_columns (op_given P)) cols /\ List.length cols = n.
Definition literal_dec : forall x y : literal, {x = y} + {x <> y}.
Proof. repeat decide equality. Defined.
Definition row_dec : forall x y : list literal, {x = y} + {x <> y} := list_eq_dec literal_dec.
Definition count (x : list literal) (l : list (list literal)) : nat := count_occ row_dec l x.
(** How often [x] is asked for by the operand: once for each row of the table that satisfies the
    conditions and has the cells [x] in the columns. *)
Definition cells (r : row) (cols : list (val * val)) : list literal :=
  map (fun p => match fst p with VStr c => column r c | _ => LNull end) cols.
Definition times (b : backend) (sv : server) (db : database) (x : list literal) (P : operand_program) (n : nat) : Prop :=
  exists cols, first_occurrences (flat_map ab_columns (op_given P)) cols /\
    n = count x (map (fun r => cells r cols) (filter (matches_items b sv (flat_map ab_where (op_given P))) (db (name_segments (op_table P))))).

(** The same expression with the operands replaced. *)
Inductive operandwise {A B} (R : A -> B -> Prop) : uexpr A -> uexpr B -> Prop :=
| ow_leaf : forall a c, R a c -> operandwise R (ULeaf a) (ULeaf c)
| ow_op : forall t l r l' r', operandwise R l l' -> operandwise R r r' -> operandwise R (UOp t l r) (UOp t l' r').
