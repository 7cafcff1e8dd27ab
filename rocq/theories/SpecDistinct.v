(** Specification: select programs over several tables with options (distinct and the like), and the rows they ask for.
    SpecJoin.v: the programs without options.  The options other than DISTINCT and DISTINCTROW are
    hints to the server or the default (ALL); they do not change which rows are the answer.  The parser
    of SpecSql.v accepts the options in every dialect. *)
From Coq Require Import Permutation Sorted.
From Verif Require SpecLists.
From Verif Require Import Base NumFmt Value Render ParseArgs Build Queries History SpecLex SpecRef SpecLogic SpecHistory SpecArgs SpecErrors SpecWhole
  SpecSql SpecServer SpecProgram SpecJoin.
Open Scope N_scope.

(** ** Rows that are shown alike.  What a star shows of two combinations is alike if the rows of all
    tables, or of the one table named before the star, have the same cells. *)
Definition cells_alike (t : path) (c d : combination) : Prop :=
  Forall2 (fun e f => fst e = fst f /\ (t = [] \/ t = fst e -> forall x, snd e x = snd f x)) c d.
Definition cell_alike (x y : cell_shown) : Prop :=
  match x, y with
  | OneCell a, OneCell b => a = b
  | Cells t c, Cells u d => t = u /\ cells_alike t c d
  | _, _ => False
  end.
Definition alike (r s : list (option path * cell_shown)) : Prop := Forall2 (fun x y => fst x = fst y /\ cell_alike (snd x) (snd y)) r s.
(** All rows; or one for each way of being shown, if only distinct ones are asked for. *)
Definition remaining {A} (distinct : bool) (show : A -> list (option path * cell_shown)) (all rows : list A) : Prop :=
  if distinct then
    (forall r, In r rows -> In r all) /\ (forall c, In c all -> exists r, In r rows /\ alike (show c) (show r)) /\
    ForallOrdPairs (fun r s => ~ alike (show r) (show s)) rows
  else Permutation rows all.

(** ** Answers to a SELECT with options.  Distinct rows can be sorted by what is shown. *)
Section Answers.
  Context (sv : server) (find : combination -> path -> literal) (le : literal -> literal -> bool) (db : database).
  Definition distinct_word (w : str) : bool := seqb w (lit "DISTINCT") || seqb w (lit "DISTINCTROW").
  Inductive option_answers : statement -> list (list (option path * cell_shown)) -> Prop :=
  | oans : forall opts cols from wh ord lim off fu rows,
      bounded lim -> bounded off -> (forall a, In (Some a) (map snd cols) -> ~ In (EColumn a) (map fst ord)) ->
      (existsb distinct_word opts = true -> forall e, In e (map fst ord) -> In e (map fst cols) \/ In (EColumn [lit "*"]) (map fst cols)) ->
      remaining (existsb distinct_word opts) (fun c => map (show_in sv find c) cols)
        (filter (fun c => kept (compare sv) (value_in sv find c) wh) (all_rows db (map (tree_of sv find) from))) rows ->
      StronglySorted (fun r s => ordered_by le (map (fun k => (fun c => value_in sv find c (fst k), snd k)) ord) r s = true) rows ->
      option_answers (StSelect opts cols from wh [] None ord lim off fu)
        (map (fun c => map (show_in sv find c) cols) (slice lim off rows)).
End Answers.

(** ** The program *)
Section Program.
  Context (b : backend).
  Inductive option_call (up : str -> str) (bo : backend) : selop -> asks -> Prop :=
  | oc_join : forall op g, join_call b up bo op g -> option_call up bo op g
  | oc_option : forall k v, option_call up bo (SOpt k v) nothing.
  Definition distinct_asked (ops : list selop) : bool := option_on ops ODistinct || option_on ops ODistinctrow.
  Context (sv : server) (find : combination -> path -> literal) (le : literal -> literal -> bool) (db : database).
  (** [cond]: the condition of where. *)
  Inductive rows_asked (distinct : bool) (cols : list (val * val)) (from : list asked_table) (cond : combination -> bool) (order : list (val * sortd)) (lim off : option Z)
    : list (list (option path * cell_shown)) -> Prop :=
  | arows : forall rows,
      remaining distinct (fun c => map (column_shown find c) cols) (filter cond (all_rows db (map (tree_asked b sv find) from))) rows ->
      StronglySorted (fun r s => ordered_by le (map (order_key find) order) r s = true) rows ->
      rows_asked distinct cols from cond order lim off (map (fun c => map (column_shown find c) cols) (slice lim off rows)).
End Program.
