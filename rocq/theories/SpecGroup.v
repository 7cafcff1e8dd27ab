(** Specification: select programs with aggregate functions, group_by and having, over one
    or several tables, and the rows they ask for.  SpecJoin.v: the tables and joins. *)
From Coq Require Import Permutation Sorted.
From Verif Require SpecLists.
From Verif Require Import Base NumFmt Value Render ParseArgs Build Queries History SpecLex SpecRef SpecLogic SpecHistory SpecArgs SpecErrors SpecWhole
  SpecSql SpecServer SpecProgram SpecJoin.
Open Scope N_scope.

(** ** The server.  [find]: the value of a column in a combination of rows; [le]: its order of
    values; [same]: which values it groups together; [total]: its aggregate functions, with
    the arguments and the rows of the group; [by_alias]: whether HAVING may refer to aliases
    of the selected columns. *)
Section Groups.
  Context (sv : server) (find : combination -> path -> literal) (le same : literal -> literal -> bool)
    (total : str -> bool -> list path -> list combination -> literal) (by_alias : bool) (db : database).
  (** A column outside of an aggregate function: its value in some row of the group. *)
  Definition cell_in (g : list combination) (p : path) : literal := match g with c :: _ => find c p | [] => LNull end.
  Definition is_aggregate (e : expr) : bool :=
    match e with
    | ECall f _ _ => existsb (seqb f) [lit "AVG"; lit "COUNT"; lit "MAX"; lit "MIN"; lit "SUM"]
    | _ => false
    end.
  Definition value_of (g : list combination) (e : expr) : literal :=
    match e with
    | EColumn p => cell_in g p
    | ECall f d ps => if is_aggregate e then total f d ps g else call sv f d (map (cell_in g) ps)
    end.
  (** A name that is an alias of a selected column stands for that column. *)
  Definition value_here (cols : list (expr * option path)) (g : list combination) (e : expr) : literal :=
    match e with
    | EColumn p => match List.find (fun c => match snd c with Some a => path_eqb a p | None => false end) cols with
                   | Some c => value_of g (fst c)
                   | None => value_of g e
                   end
    | _ => value_of g e
    end.
  (** [gs] are groups of [rows]: the rows of a group agree in all keys, rows of different
      groups do not.  Without keys there is one group, if an aggregate is selected. *)
  Definition agree (keys : list (combination -> literal)) (c d : combination) : bool := forallb (fun f => same (f c) (f d)) keys.
  Definition groups (keys : list (combination -> literal)) (aggregate : bool) (rows : list combination) (gs : list (list combination)) : Prop :=
    Permutation (List.concat gs) rows /\
    match keys with
    | [] => aggregate = true /\ List.length gs = 1%nat
    | _ => Forall (fun g => g <> [] /\ forall c d, In c g -> In d g -> agree keys c d = true) gs /\
           ForallOrdPairs (fun g h => forall c d, In c g -> In d h -> agree keys c d = false) gs
    end.
  Fixpoint sorted_by {A} (keys : list ((A -> literal) * bool)) (r s : A) : bool :=
    match keys with
    | [] => true
    | (f, desc) :: rest =>
        let (x, y) := if desc : bool then (f s, f r) else (f r, f s) in
        le x y && (negb (le y x) || sorted_by rest r s)
    end.
  Definition cells_in (g : list combination) (p : path) : cell_shown :=
    if seqb (last p []) (lit "*") then Cells (removelast p) (match g with c :: _ => c | [] => [] end) else OneCell (cell_in g p).
  Definition show_group (g : list combination) (e : expr * option path) : option path * cell_shown :=
    (snd e, match fst e with EColumn p => cells_in g p | _ => OneCell (value_of g (fst e)) end).
  Inductive group_answers : statement -> list (list (option path * cell_shown)) -> Prop :=
  | gans : forall cols from wh gr ha ord lim off fu gs kept_groups,
      bounded lim -> bounded off ->
      Forall (fun k => snd k = false) gr -> (forall a, In (Some a) (map snd cols) -> ~ In (EColumn a) (map fst gr)) ->
      groups (map (fun k c => value_in sv find c (fst k)) gr) (existsb is_aggregate (map fst cols))
        (filter (fun c => kept (compare sv) (value_in sv find c) wh) (all_rows db (map (tree_of sv find) from))) gs ->
      Permutation kept_groups (filter (fun g => kept (compare sv) (if by_alias then value_here cols g else value_of g) ha) gs) ->
      StronglySorted (fun g h => sorted_by (map (fun k => (fun g => value_here cols g (fst k), snd k)) ord) g h = true) kept_groups ->
      group_answers (StSelect [] cols from wh gr ha ord lim off fu) (map (fun g => map (show_group g) cols) (slice lim off kept_groups)).
End Groups.

(** ** What the program asks for *)
(** Names that contain neither quote character nor a parenthesis, and, as the argument of
    a function, no empty part. *)
Fixpoint dotted (l : list str) : str := match l with [] => [] | [x] => x | x :: r => x ++ [46] ++ dotted r end.
Definition simple_name (s : str) : Prop := good_name 96 s /\ good_name 34 s /\ ~ In 40 s.
Definition tidy_name (s : str) : Prop := simple_name s /\ dotted (name_segments s) = s.
(** A column, or Avg, Count, Max, Min, Sum of one. *)
Definition item (x : val) : Prop :=
  match x with
  | VStr s => simple_name s
  | VAgg _ _ (VStr s) => tidy_name s
  | _ => False
  end.
Record asks_groups := MkGroups { ag_join : asks; ag_group : list (val * val); ag_having : list (val * val) }.
Section Program.
  Context (b : backend).
  Definition column_item (p : val * val) : Prop :=
    item (fst p) /\ (snd p = VNone \/ exists a, snd p = VStr a /\ good_name (quote_of b) a).
  Inductive group_call (up : str -> str) (bo : backend) : selop -> asks_groups -> Prop :=
  | gc_plain : forall op g, join_call b up bo op g -> as_columns g = [] -> as_order g = [] -> group_call up bo op (MkGroups g [] [])
  | gc_columns : forall a k ps, keys_ok a k -> alias_args a k ps -> Forall column_item ps ->
      group_call up bo (SColumns a k) (MkGroups (MkAsks ps [] [] []) [] [])
  | gc_order : forall a k ps, keys_ok a k -> alias_args a k ps -> Forall (fun p => item (fst p) /\ exists d, direction up (snd p) d) ps ->
      group_call up bo (SOrderBy a k) (MkGroups (MkAsks [] [] [] ps) [] [])
  | gc_group : forall a k ps, keys_ok a k -> alias_args a k ps ->
      Forall (fun p => (exists c, fst p = VStr c /\ good_name (quote_of b) c) /\ direction up (snd p) Asc) ps ->
      group_call up bo (SGroupBy a k) (MkGroups nothing ps [])
  | gc_having : forall a k ps, keys_ok a k -> pair_args a k ps ->
      Forall (fun p => item (fst p) /\ condition_value b (snd p)) ps ->
      group_call up bo (SHaving a k) (MkGroups nothing [] ps).

  Context (sv : server) (find : combination -> path -> literal) (le same : literal -> literal -> bool)
    (total : str -> bool -> list path -> list combination -> literal) (by_alias : bool) (db : database).
  Definition item_value (g : list combination) (x : val) : literal :=
    match x with
    | VStr s => cell_in find g (name_segments s)
    | VAgg k d (VStr s) => total (function_name k) d [name_segments s] g
    | _ => LNull
    end.
  Definition item_here (cols : list (val * val)) (g : list combination) (x : val) : literal :=
    match x with
    | VStr s => match List.find (fun c => match snd c with VStr a => path_eqb (name_segments a) (name_segments s) | _ => false end) cols with
                | Some c => item_value g (fst c)
                | None => item_value g x
                end
    | _ => item_value g x
    end.
  Definition is_function (x : val) : bool := match x with VAgg _ _ _ => true | _ => false end.
  Definition having_holds (value : val -> literal) (ps : list (val * val)) : bool :=
    forallb (fun p => is_true (holds b sv (value (fst p)) (snd p))) ps.
  Definition group_shown (g : list combination) (p : val * val) : option path * cell_shown :=
    (match snd p with VStr a => Some (name_segments a) | _ => None end,
     match fst p with VStr s => cells_in find g (name_segments s) | x => OneCell (item_value g x) end).
  Inductive asked_groups (cols : list (val * val)) (from : list asked_table) (wh group having : list (val * val)) (order : list (val * sortd)) (lim off : option Z)
    : list (list (option path * cell_shown)) -> Prop :=
  | agrp : forall gs kept_groups,
      groups same (map (fun p c => find c (segments (fst p))) group) (existsb is_function (map fst cols))
        (filter (fun c => where_holds b sv (find c) wh) (all_rows db (map (tree_asked b sv find) from))) gs ->
      Permutation kept_groups (filter (fun g => having_holds (if by_alias then item_here cols g else item_value g) having) gs) ->
      StronglySorted (fun g h => sorted_by le (map (fun p => (fun g => item_here cols g (fst p), match snd p with Desc => true | Asc => false end)) order) g h = true) kept_groups ->
      asked_groups cols from wh group having order lim off (map (fun g => map (group_shown g) cols) (slice lim off kept_groups)).
End Program.
