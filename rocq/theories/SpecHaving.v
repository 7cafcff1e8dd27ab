(** Specification: select programs with groups whose HAVING is made by Q, Not, & and |, too.
    SpecGroupAll.v: the other calls; SpecGroup.v: what a column or function is of a group; SpecProgramQ.v: the expressions. *)
From Coq Require Import Permutation Sorted.
From Verif Require Import Base NumFmt Value Render ParseArgs Build Queries History SpecLex SpecRef SpecLogic SpecHistory SpecArgs SpecErrors SpecWhole
  SpecSql SpecServer SpecProgram SpecProgramQ SpecJoin SpecGroup SpecDistinct SpecGroupAll.
Open Scope N_scope.

(** The arguments of having, or of Q and Not, that give the pairs [ps] of a column or function and a value. *)
Definition having_pairs (b : backend) (a : list val) (k : kwargs) (ps : list (val * val)) : Prop :=
  keys_ok a k /\ pair_args a k ps /\ Forall (fun p => item (fst p) /\ condition_value b (snd p)) ps.
Fixpoint group_sensible (b : backend) (e : cexp) : Prop :=
  match e with
  | XPairs _ a k ps => having_pairs b a k ps /\ ps <> []
  | XAll _ l => together l /\ (fix all l := match l with [] => True | x :: r => group_sensible b x /\ all r end) l
  | XBin _ x y => group_sensible b x /\ group_sensible b y /\ is_Not x = false /\ is_Not y = false
  end.

Section Meaning.
  (** [value]: what the columns and functions are of the group. *)
  Context (b : backend) (sv : server) (value : val -> literal).
  Definition group_pair_says (p : val * val) : t3 := holds b sv (value (fst p)) (snd p).
  Fixpoint group_says (e : cexp) : t3 :=
    match e with
    | XPairs n _ _ ps => negated_if n (fold_right and3 (Some true) (map group_pair_says ps))
    | XAll n l => negated_if n (fold_right and3 (Some true) (map group_says l))
    | XBin OpAnd x y => and3 (group_says x) (group_says y)
    | XBin OpOr x y => or3 (group_says x) (group_says y)
    end.
  (** Every item is true of the group. *)
  Definition group_items_hold (l : list where_item) : bool :=
    forallb (fun i => is_true match i with inl p => group_pair_says p | inr e => group_says e end) l.
End Meaning.

(** What one call of having asks for: pairs, or objects made by such expressions. *)
Inductive having_asks (E : env) (b : backend) : list val -> kwargs -> list where_item -> Prop :=
| hi_pairs : forall a k ps, having_pairs b a k ps -> having_asks E b a k (map inl ps)
| hi_objects : forall l a, together l -> Forall (group_sensible b) l ->
    Forall2 (fun e x => evaluate (pure_world (with_be E b)) e = Ok x) l a -> having_asks E b a [] (map inr l).

Section Program.
  Context (E : env) (b : backend).
  (** What a call asks for, and what it asks of the groups. *)
  Inductive kept_call (bo : backend) : selop -> (asks_groups * list where_item) * list where_item -> Prop :=
  | kc_other : forall op g, grouped_call E b bo op g -> (forall a k, op <> SHaving a k) -> kept_call bo op (g, [])
  | kc_having : forall a k ts, bo = b -> having_asks E b a k ts -> kept_call bo (SHaving a k) ((MkGroups nothing [] [], []), ts).

  Context (sv : server) (find : combination -> path -> literal) (le same : literal -> literal -> bool)
    (total : str -> bool -> list path -> list combination -> literal) (by_alias : bool) (db : database).
  (** [cond]: the condition of where; [keeps]: the condition of having, of a group given by what columns and functions are of it. *)
  Inductive groups_kept (distinct : bool) (cols : list (val * val)) (from : list asked_table) (cond : combination -> bool) (group : list (val * val))
    (keeps : (val -> literal) -> bool) (order : list (val * sortd)) (lim off : option Z) : list (list (option path * cell_shown)) -> Prop :=
  | gkept : forall gs kept_groups,
      groups same (map (fun p c => find c (segments (fst p))) group) (existsb is_function (map fst cols))
        (filter cond (all_rows db (map (tree_asked b sv find) from))) gs ->
      remaining distinct (fun g => map (group_shown find total g) cols)
        (filter (fun g => keeps (if by_alias then item_here find total cols g else item_value find total g)) gs) kept_groups ->
      StronglySorted (fun g h => sorted_by le (map (fun p => (fun g => item_here find total cols g (fst p), match snd p with Desc => true | Asc => false end)) order) g h = true) kept_groups ->
      groups_kept distinct cols from cond group keeps order lim off (map (fun g => map (group_shown find total g) cols) (slice lim off kept_groups)).
End Program.
