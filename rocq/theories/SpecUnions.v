(** Specification: UNIONs of selects over joined tables, with options and any conditions.
    SpecUnion.v: how a server reads a union; SpecBackends.v: expressions of selects combined with & and |;
    SpecServer.v: the selects whose text is understood; SpecJoin.v, SpecDistinct.v: the answers to one SELECT;
    SpecObjects.v: the programs of C93. *)
From Coq Require Import Permutation.
From Verif Require Import Base Value Render ParseArgs Build Queries SpecLex SpecRef SpecHistory SpecArgs SpecWhole SpecSql SpecServer SpecProgram SpecProgramQ SpecBackends
  SpecUnion SpecJoin SpecDistinct SpecObjects.
Open Scope N_scope.

(** ** The server *)
Section Server.
  Context (sv : server) (find : combination -> path -> literal) (le : literal -> literal -> bool) (db : database).
  (** The rows of one SELECT, without the names of the columns. *)
  Definition joined_rows (st : statement) (out : list (list literal)) : Prop :=
    exists named, option_answers sv find le db st named /\ Forall2 (Forall2 (fun p x => snd p = OneCell x)) named out.
  (** From left to right; UNION ALL keeps all rows, UNION one of each. *)
  Inductive unions : statement -> list (bool * statement) -> list (list literal) -> Prop :=
  | un_one : forall st out, bare st -> joined_rows st out -> unions st [] out
  | un_all : forall st l a st' c out, unions st l a -> bare st' -> width st' = width st -> joined_rows st' c ->
      Permutation out (a ++ c) -> unions st (l ++ [(true, st')]) out
  | un_distinct : forall st l a st' c out, unions st l a -> bare st' -> width st' = width st -> joined_rows st' c ->
      NoDup out -> (forall x, In x out <-> In x a \/ In x c) -> unions st (l ++ [(false, st')]) out.
End Server.

(** ** The operands *)
(** A select with [n] columns, all of them names and not stars, over any tables and joins, with any conditions and
    options, but without group_by, having, order_by, limit, offset and for_update. *)
Definition plain_operand (b : backend) (n : nat) (q : selq val) : Prop :=
  select_fine b q /\ Forall cell_column (s_cols q) /\ List.length (s_cols q) = n /\
  s_group q = [] /\ s_having q = [] /\ s_order q = [] /\ s_limit q = MkLimits None None /\ s_forupd q = false.
(** How often [x] is a row of the answer to the select, executed on its own. *)
Definition alone (E : env) (sv : server) (find : combination -> path -> literal) (le : literal -> literal -> bool) (db : database)
  (x : list literal) (q : selq val) (m : nat) : Prop :=
  exists t st out, text E (VSelect q) = Ok t /\ understood (dialect_of (e_be E)) t = Some st /\ joined_rows sv find le db st out /\ m = count x out.

(** ** The programs *)
(** One operand: the calls, what each asks for, and the tables with their joins. *)
Record union_operand := MkUnionOperand { uo_calls : list (backend * selop); uo_given : list (asks * list where_item); uo_tables : list asked_table }.
Definition uo_columns (P : union_operand) : list (val * val) := flat_map (fun g => as_columns (fst g)) (uo_given P).
(** Calls of C93 without order_by, limit, offset and for_update; [n] different columns. *)
Definition union_operand_ok (E : env) (b : backend) (n : nat) (P : union_operand) : Prop :=
  Forall2 (fun bo g => select_with E b (fst bo) (snd bo) g) (uo_calls P) (uo_given P) /\
  tables_asked (flat_map (fun g => as_from (fst g)) (uo_given P)) = Some (uo_tables P) /\ NoDup (flat_map names_of (uo_tables P)) /\
  Forall (fun c => match snd c with SOrderBy _ _ | SLimit _ _ | SOffset _ | SForUpdate _ => False | _ => True end) (uo_calls P) /\
  Forall cell_column (uo_columns P) /\ exists cols, first_occurrences (uo_columns P) cols /\ List.length cols = n.
(** How often [x] is asked for by the operand. *)
Definition asked_times (b : backend) (sv : server) (find : combination -> path -> literal) (le : literal -> literal -> bool) (db : database)
  (x : list literal) (P : union_operand) (m : nat) : Prop :=
  exists cols named out, first_occurrences (uo_columns P) cols /\
    rows_asked b sv find le db (distinct_asked (map snd (uo_calls P))) cols (uo_tables P) (fun c => items_hold b sv (find c) (flat_map snd (uo_given P)))
      [] None None named /\
    Forall2 (Forall2 (fun p x => snd p = OneCell x)) named out /\ m = count x out.
