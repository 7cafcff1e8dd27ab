(** Specification: select programs over several tables (from_, join, left_join, right_join,
    full_join, on, where, order_by, limit) and the rows they ask for.
    SpecProgram.v: the programs over one table, the data and the conditions. *)
From Coq Require Import Permutation Sorted.
From Verif Require SpecLists.
From Verif Require Import Base NumFmt Value Render ParseArgs Build Queries History SpecLex SpecRef SpecLogic SpecHistory SpecArgs SpecErrors SpecWhole
  SpecSql SpecServer SpecProgram.
Open Scope N_scope.

(** ** Rows of several tables.  A combination has a row of each table, under the name by
    which the statement refers to that table. *)
Definition combination := list (path * row).
Definition null_row : row := fun _ => LNull.
(** One table joined to combinations of the tables [names]; [on] is the join condition. *)
Definition combine (kind : joinkind) (names : list path) (on : combination -> bool) (n : path) (cs : list combination) (rows : list row)
  : list combination :=
  let matching := filter on (flat_map (fun c => map (fun r => c ++ [(n, r)]) rows) cs) in
  let left_only := map (fun c => c ++ [(n, null_row)]) (filter (fun c => negb (existsb (fun r => on (c ++ [(n, r)])) rows)) cs) in
  let right_only := map (fun r => map (fun m => (m, null_row)) names ++ [(n, r)])
                        (filter (fun r => negb (existsb (fun c => on (c ++ [(n, r)])) cs)) rows) in
  match kind with
  | InnerJoin => matching
  | LeftJoin => matching ++ left_only
  | RightJoin => matching ++ right_only
  | FullJoin => matching ++ left_only ++ right_only
  end.
(** A table with its joins: the table, the name it has, and for each join its kind,
    its table, the name of that and the condition. *)
Record tree := MkTree { tr_table : path; tr_name : path; tr_joins : list (joinkind * path * path * (combination -> bool)) }.
Section Rows.
  Context (db : database).
  Fixpoint join_all (names : list path) (cs : list combination) (js : list (joinkind * path * path * (combination -> bool))) : list combination :=
    match js with
    | [] => cs
    | (kind, t, n, on) :: js' => join_all (names ++ [n]) (combine kind names on n cs (db t)) js'
    end.
  Definition tree_rows (t : tree) : list combination :=
    join_all [tr_name t] (map (fun r => [(tr_name t, r)]) (db (tr_table t))) (tr_joins t).
  (** Tables separated by commas: every combination. *)
  Fixpoint all_rows (ts : list tree) : list combination :=
    match ts with
    | [] => [[]]
    | t :: ts' => flat_map (fun c => map (fun d => c ++ d) (all_rows ts')) (tree_rows t)
    end.
End Rows.

(** ** Answers to a SELECT.  [find] is the server's way to find the value of a column, qualified
    or not, in a combination; [le] is its order of values. *)
Inductive cell_shown := OneCell (x : literal) | Cells (table : path) (c : combination).
Section Answers.
  Context (sv : server) (find : combination -> path -> literal) (le : literal -> literal -> bool) (db : database).
  Definition value_in (c : combination) (e : expr) : literal :=
    match e with EColumn p => find c p | ECall f d ps => call sv f d (map (find c) ps) end.
  Definition name_or (o : option path) (t : path) : path := match o with Some n => n | None => t end.
  Definition tree_of (s : source) : tree :=
    MkTree (sc_table s) (name_or (sc_alias s) (sc_table s))
      (map (fun j => (jn_kind j, jn_table j, name_or (jn_alias j) (jn_table j), fun c => kept (compare sv) (value_in c) (jn_on j))) (sc_joins s)).
  Fixpoint ordered_by (keys : list ((combination -> literal) * bool)) (r s : combination) : bool :=
    match keys with
    | [] => true
    | (f, desc) :: rest =>
        let (x, y) := if desc : bool then (f s, f r) else (f r, f s) in
        le x y && (negb (le y x) || ordered_by rest r s)
    end.
  (** A star shows all columns, of one table if it is qualified. *)
  Definition shown_at (c : combination) (p : path) : cell_shown :=
    if seqb (last p []) (lit "*") then Cells (removelast p) c else OneCell (find c p).
  Definition show_in (c : combination) (e : expr * option path) : option path * cell_shown :=
    (snd e, match fst e with EColumn p => shown_at c p | _ => OneCell (value_in c (fst e)) end).
  Inductive join_answers : statement -> list (list (option path * cell_shown)) -> Prop :=
  | jans : forall cols from wh ord lim off fu rows,
      bounded lim -> bounded off -> (forall a, In (Some a) (map snd cols) -> ~ In (EColumn a) (map fst ord)) ->
      Permutation rows (filter (fun c => kept (compare sv) (value_in c) wh) (all_rows db (map tree_of from))) ->
      StronglySorted (fun r s => ordered_by (map (fun k => (fun c => value_in c (fst k), snd k)) ord) r s = true) rows ->
      join_answers (StSelect [] cols from wh [] None ord lim off fu)
        (map (fun c => map (show_in c) cols) (slice lim off rows)).
End Answers.

(** ** What the program asks for *)
Inductive from_part :=
| PTables (ts : list (val * val))                        (* from_: tables with their aliases *)
| PJoin (kind : joinkind) (table alias : val)            (* join and the like *)
| POn (ps : list (val * val)).                           (* on *)
Record asked_join := MkAJ { aj_kind : joinkind; aj_table : val; aj_alias : val; aj_on : list (val * val) }.
Record asked_table := MkAT { at_table : val; at_alias : val; at_joins : list asked_join }.
(** on belongs to the last join of the last table, a join to the last table; without
    one there is no answer. *)
Fixpoint change_last {A} (f : A -> option A) (l : list A) : option (list A) :=
  match l with
  | [] => None
  | [x] => option_map (fun y => [y]) (f x)
  | x :: r => option_map (cons x) (change_last f r)
  end.
Definition add_part (ts : list asked_table) (p : from_part) : option (list asked_table) :=
  match p with
  | PTables l => Some (ts ++ map (fun p => MkAT (fst p) (snd p) []) l)
  | PJoin k t a => change_last (fun x => Some (MkAT (at_table x) (at_alias x) (at_joins x ++ [MkAJ k t a []]))) ts
  | POn ps => change_last (fun x => option_map (MkAT (at_table x) (at_alias x))
                (change_last (fun j => Some (MkAJ (aj_kind j) (aj_table j) (aj_alias j) (aj_on j ++ ps))) (at_joins x))) ts
  end.
Definition tables_asked (ps : list from_part) : option (list asked_table) :=
  fold_left (fun o p => match o with Some ts => add_part ts p | None => None end) ps (Some []).

(** The name by which a table is known. *)
Definition segments (v : val) : path := match v with VStr s => name_segments s | _ => [] end.
Definition known_as (table alias : val) : path := match alias with VStr a => name_segments a | _ => segments table end.
Definition names_of (t : asked_table) : list path :=
  known_as (at_table t) (at_alias t) :: map (fun j => known_as (aj_table j) (aj_alias j)) (at_joins t).

Section Meaning.
  Context (b : backend) (sv : server) (at_ : path -> literal).
  Definition where_holds (ps : list (val * val)) : bool :=
    forallb (fun p => is_true (holds b sv (at_ (segments (fst p))) (snd p))) ps.
  (** In a join condition a string is a column. *)
  Definition on_holds (x : literal) (v : val) : t3 :=
    match v with
    | VStr d => compare3 (compare sv) CEq x (at_ (name_segments d))
    | VRel rk (VStr d) => match operator_of rk with Some o => compare3 (compare sv) o x (at_ (name_segments d)) | None => None end
    | _ => holds b sv x v
    end.
  Definition on_hold (ps : list (val * val)) : bool :=
    forallb (fun p => is_true (on_holds (at_ (segments (fst p))) (snd p))) ps.
End Meaning.
Section Program.
  Context (b : backend).
  Definition on_value (v : val) : Prop :=
    match v with
    | VStr d => good_name (quote_of b) d
    | VRel rk (VStr d) => rk <> RIn /\ rk <> RNotIn /\ good_name (quote_of b) d
    | _ => condition_value b v
    end.
  Definition on_pair (p : val * val) : Prop := (exists c, fst p = VStr c /\ good_name (quote_of b) c) /\ on_value (snd p).
  Definition plain_table (p : val * val) : Prop :=
    (exists t, fst p = VStr t /\ good_name (quote_of b) t) /\ (snd p = VNone \/ exists a, snd p = VStr a /\ good_name (quote_of b) a).
  (** What one call asks for. *)
  Record asks := MkAsks { as_columns : list (val * val); as_from : list from_part; as_where : list (val * val); as_order : list (val * val) }.
  Definition nothing : asks := MkAsks [] [] [] [].
  (** [bo] is the backend when the call is made, [up] is str.upper. *)
  Inductive join_call (up : str -> str) (bo : backend) : selop -> asks -> Prop :=
  | jc_columns : forall a k ps, keys_ok a k -> alias_args a k ps -> Forall (plain_column b) ps ->
      join_call up bo (SColumns a k) (MkAsks ps [] [] [])
  | jc_from : forall a k ps, keys_ok (filter truthy a) k -> alias_args (filter truthy a) k ps -> Forall plain_table ps ->
      join_call up bo (SFrom a k) (MkAsks [] [PTables ps] [] [])
  | jc_from_table : forall t a, plain_table (t, a) -> join_call up bo (SFromTable t a) (MkAsks [] [PTables [(t, a)]] [] [])
  | jc_join : forall ty arg t a, SpecLists.join_arg arg t a -> plain_table (t, a) -> (ty = JFull -> bo = BPostgres) ->
      join_call up bo (SJoin ty arg) (MkAsks [] [PJoin (kind_of_join ty) t a] [] [])
  | jc_on : forall a k ps, keys_ok a k -> some_data a -> pair_args a k ps -> Forall on_pair ps ->
      join_call up bo (SOn a k) (MkAsks [] [POn ps] [] [])
  | jc_where : forall a k ps, where_call b a k ps -> join_call up bo (SWhere a k) (MkAsks [] [] ps [])
  | jc_order : forall a k ps, keys_ok a k -> alias_args a k ps ->
      Forall (fun p => (exists c, fst p = VStr c /\ good_name (quote_of b) c) /\ exists d, direction up (snd p) d) ps ->
      join_call up bo (SOrderBy a k) (MkAsks [] [] [] ps)
  | jc_limit : forall l o, limit_accepts l o -> join_call up bo (SLimit l o) nothing
  | jc_offset : forall o, limit_arg o -> join_call up bo (SOffset o) nothing
  | jc_update : forall v, join_call up bo (SForUpdate v) nothing.

  (** The answer: [find] and [le] as above. *)
  Context (sv : server) (find : combination -> path -> literal) (le : literal -> literal -> bool) (db : database).
  Definition tree_asked (t : asked_table) : tree :=
    MkTree (segments (at_table t)) (known_as (at_table t) (at_alias t))
      (map (fun j => (aj_kind j, segments (aj_table j), known_as (aj_table j) (aj_alias j), fun c => on_hold b sv (find c) (aj_on j))) (at_joins t)).
  Definition column_shown (c : combination) (p : val * val) : option path * cell_shown :=
    (match snd p with VStr a => Some (name_segments a) | _ => None end, shown_at find c (segments (fst p))).
  Definition order_key (p : val * sortd) : (combination -> literal) * bool :=
    (fun c => find c (segments (fst p)), match snd p with Desc => true | Asc => false end).
  Inductive asked_answers (cols : list (val * val)) (from : list asked_table) (wh : list (val * val)) (order : list (val * sortd)) (lim off : option Z)
    : list (list (option path * cell_shown)) -> Prop :=
  | aans : forall rows,
      Permutation rows (filter (fun c => where_holds b sv (find c) wh) (all_rows db (map tree_asked from))) ->
      StronglySorted (fun r s => ordered_by le (map order_key order) r s = true) rows ->
      asked_answers cols from wh order lim off (map (fun c => map (column_shown c) cols) (slice lim off rows)).
End Program.

(** Comparisons that can be read from right to left. *)
Definition mirrored (sv : server) : Prop := forall x y,
  compare sv CEq x y = compare sv CEq y x /\ compare sv CNe x y = compare sv CNe y x /\
  compare sv CLt x y = compare sv CGt y x /\ compare sv CLe x y = compare sv CGe y x.
