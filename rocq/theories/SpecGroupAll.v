(** Specification: select programs with groups, options (distinct and the like) and conditions made by
    Q, Not, & and |, and the rows they ask for.  SpecGroup.v: groups; SpecDistinct.v: options; SpecProgramQ.v: the conditions. *)
From Coq Require Import Permutation Sorted.
From Verif Require SpecLists.
From Verif Require Import Base NumFmt Value Render ParseArgs Build Queries History SpecLex SpecRef SpecLogic SpecHistory SpecArgs SpecErrors SpecWhole
  SpecSql SpecServer SpecProgram SpecProgramQ SpecJoin SpecGroup SpecDistinct.
Open Scope N_scope.

(** ** The server: as in SpecGroup.v; of groups that show the same cells DISTINCT keeps one.
    Distinct groups can be sorted by what is shown. *)
Section Groups.
  Context (sv : server) (find : combination -> path -> literal) (le same : literal -> literal -> bool)
    (total : str -> bool -> list path -> list combination -> literal) (by_alias : bool) (db : database).
  Inductive grouped_answers : statement -> list (list (option path * cell_shown)) -> Prop :=
  | gdans : forall opts cols from wh gr ha ord lim off fu gs kept_groups,
      bounded lim -> bounded off ->
      Forall (fun k => snd k = false) gr -> (forall a, In (Some a) (map snd cols) -> ~ In (EColumn a) (map fst gr)) ->
      (existsb distinct_word opts = true -> forall e, In e (map fst ord) -> In e (map fst cols) \/ exists a, e = EColumn a /\ In (Some a) (map snd cols)) ->
      groups same (map (fun k c => value_in sv find c (fst k)) gr) (existsb is_aggregate (map fst cols))
        (filter (fun c => kept (compare sv) (value_in sv find c) wh) (all_rows db (map (tree_of sv find) from))) gs ->
      remaining (existsb distinct_word opts) (fun g => map (show_group sv find total g) cols)
        (filter (fun g => kept (compare sv) (if by_alias then value_here sv find total cols g else value_of sv find total g) ha) gs) kept_groups ->
      StronglySorted (fun g h => sorted_by le (map (fun k => (fun g => value_here sv find total cols g (fst k), snd k)) ord) g h = true) kept_groups ->
      grouped_answers (StSelect opts cols from wh gr ha ord lim off fu) (map (fun g => map (show_group sv find total g) cols) (slice lim off kept_groups)).
End Groups.

(** ** What the program asks for *)
Section Program.
  Context (E : env) (b : backend).
  Inductive grouped_call (bo : backend) : selop -> asks_groups * list where_item -> Prop :=
  | gw_other : forall op g, group_call b (supper E) bo op g -> (forall a k, op <> SWhere a k) -> grouped_call bo op (g, [])
  | gw_option : forall k v, grouped_call bo (SOpt k v) (MkGroups nothing [] [], [])
  | gw_where : forall a k ts, bo = b -> where_asks E b a k ts -> grouped_call bo (SWhere a k) (MkGroups nothing [] [], ts).

  Context (sv : server) (find : combination -> path -> literal) (le same : literal -> literal -> bool)
    (total : str -> bool -> list path -> list combination -> literal) (by_alias : bool) (db : database).
  (** [cond]: the condition of where. *)
  Inductive groups_asked (distinct : bool) (cols : list (val * val)) (from : list asked_table) (cond : combination -> bool) (group having : list (val * val))
    (order : list (val * sortd)) (lim off : option Z) : list (list (option path * cell_shown)) -> Prop :=
  | gasked : forall gs kept_groups,
      groups same (map (fun p c => find c (segments (fst p))) group) (existsb is_function (map fst cols))
        (filter cond (all_rows db (map (tree_asked b sv find) from))) gs ->
      remaining distinct (fun g => map (group_shown find total g) cols)
        (filter (fun g => having_holds b sv (if by_alias then item_here find total cols g else item_value find total g) having) gs) kept_groups ->
      StronglySorted (fun g h => sorted_by le (map (fun p => (fun g => item_here find total cols g (fst p), match snd p with Desc => true | Asc => false end)) order) g h = true) kept_groups ->
      groups_asked distinct cols from cond group having order lim off (map (fun g => map (group_shown find total g) cols) (slice lim off kept_groups)).
End Program.
