(** Specification: delete and update programs over several tables (MySQL's DELETE a, b FROM a JOIN b ... and
    UPDATE a JOIN b ... SET ...), what a server does with their statements and what the calls ask for.
    SpecJoin.v: combinations of rows, joins, the parts of FROM.  SpecProgram.v: the data and the conditions. *)
From Verif Require SpecLists.
From Verif Require Import Base NumFmt Value Render ParseArgs Build Queries History SpecLex SpecRef SpecLogic SpecHistory SpecArgs SpecErrors SpecWhole
  SpecSql SpecServer SpecProgram SpecJoin.
Open Scope N_scope.

(** ** Which rows of the tables a set of combinations consists of.  Two rows of a table may have the same cells:
    rows are told apart by their positions, kept in a column without a name. *)
Fixpoint from_nr {A} (i : nat) (l : list A) : list (nat * A) :=
  match l with [] => [] | x :: r => (i, x) :: from_nr (S i) r end.
Definition indexed {A} (l : list A) : list (nat * A) := from_nr O l.
Definition with_nr (x : nat * row) : row := fun c => match c with [] => LInt (Z.of_nat (fst x)) | _ => snd x c end.
Definition numbered (db : database) : database := fun t => map with_nr (indexed (db t)).
Definition has_nr (r : row) (i : nat) : bool := match r [] with LInt z => (z =? Z.of_nat i)%Z | _ => false end.
(** The tables of a statement: the name of each and the table it stands for. *)
Definition tables_in (ts : list tree) : list (path * path) :=
  flat_map (fun t => (tr_name t, tr_table t) :: map (fun j => match j with (_, tb, n, _) => (n, tb) end) (tr_joins t)) ts.
(** Row [i] of the table known as [n] is in one of the combinations. *)
Definition occurs (cs : list combination) (n : path) (i : nat) : bool :=
  existsb (fun c => existsb (fun e => path_eqb (fst e) n && has_nr (snd e) i) c) cs.

(** ** DELETE: of the tables [targets], the rows that are in the combinations [cs] *)
Definition removed (ts : list tree) (cs : list combination) (targets : list path) (t : path) (i : nat) : bool :=
  existsb (fun x => path_eqb (snd x) t && existsb (path_eqb (fst x)) targets && occurs cs (fst x) i) (tables_in ts).
Definition without (ts : list tree) (cs : list combination) (targets : list path) (db : database) : database :=
  fun t => map snd (filter (fun x => negb (removed ts cs targets t (fst x))) (indexed (db t))).

(** ** UPDATE.  [own] is the server's way to tell of which table, by its name, a column is. *)
Definition assign_in (own : path -> path) (ts : list tree) (cs : list combination) (sets : list (path * literal)) (t : path) (x : nat * row) : row :=
  fold_left (fun r y => if path_eqb (snd y) t && occurs cs (fst y) (fst x)
                        then fold_left store (filter (fun a => path_eqb (own (fst a)) (fst y)) sets) r else r) (tables_in ts) (snd x).

(** ** What a server does.  [find]: how it finds the value of a column in a combination. *)
Section Server.
  Context (sv : server) (find : combination -> path -> literal).
  (** The combinations that satisfy WHERE. *)
  Definition selected_rows (db : database) (from : list source) (wh : option sexp) : list combination :=
    filter (fun c => kept (compare sv) (value_in sv find c) wh) (all_rows (numbered db) (map (tree_of sv find) from)).
  Definition bare (s : source) : bool := match s with MkSource _ None [] => true | _ => false end.
  Definition multi_delete (st : statement) (db : database) : option database :=
    match st with
    | StDelete _ (t :: ts) from wh =>
        let trees := map (tree_of sv find) from in
        let targets := map sc_table (t :: ts) in
        if forallb bare (t :: ts) && forallb (fun p => existsb (path_eqb p) (map fst (tables_in trees))) targets
        then Some (without trees (selected_rows db from wh) targets db) else None
    | _ => None
    end.
  Definition multi_update (own : path -> path) (st : statement) (db : database) : option database :=
    match st with
    | StUpdate _ from sets wh =>
        Some (fun t => map (assign_in own (map (tree_of sv find) from) (selected_rows db from wh) sets t) (indexed (db t)))
    | _ => None
    end.
End Server.

(** ** What the programs ask for *)
Section Programs.
  Context (b : backend).
  (** delete(...): tables without aliases. *)
  Definition plain_target (p : val * val) : Prop := (exists t, fst p = VStr t /\ good_name (quote_of b) t) /\ snd p = VNone.
  Record asks_delete := MkAD { ad_targets : list (val * val); ad_from : list from_part; ad_where : list (val * val) }.
  Inductive delete_join_call : delop -> asks_delete -> Prop :=
  | dc_delete : forall a ps, keys_ok (filter truthy a) [] -> alias_args (filter truthy a) [] ps -> Forall plain_target ps ->
      delete_join_call (DDelete a) (MkAD ps [] [])
  | dc_from : forall a k ps, keys_ok (filter truthy a) k -> alias_args (filter truthy a) k ps -> Forall (plain_table b) ps ->
      delete_join_call (DFrom a k) (MkAD [] [PTables ps] [])
  | dc_from_table : forall t a, plain_table b (t, a) -> delete_join_call (DFromTable t a) (MkAD [] [PTables [(t, a)]] [])
  | dc_join : forall ty arg t a, SpecLists.join_arg arg t a -> plain_table b (t, a) ->
      delete_join_call (DJoin ty arg) (MkAD [] [PJoin (kind_of_join (j3 ty)) t a] [])
  | dc_on : forall a k ps, keys_ok a k -> some_data a -> pair_args a k ps -> Forall (on_pair b) ps ->
      delete_join_call (DOn a k) (MkAD [] [POn ps] [])
  | dc_where : forall a k ps, where_call b a k ps -> delete_join_call (DWhere a k) (MkAD [] [] ps)
  | dc_allow : delete_join_call DAllow (MkAD [] [] [])
  | dc_forbid : delete_join_call DForbid (MkAD [] [] [])
  | dc_ignore : forall v, delete_join_call (DIgnore v) (MkAD [] [] []).

  (** set(...): columns may be qualified. *)
  Definition set_in_pair (p : val * val) : Prop := (exists c, fst p = VStr c /\ good_name (quote_of b) c) /\ cell_value b (snd p).
  Record asks_update := MkAU { au_from : list from_part; au_sets : list (val * val); au_where : list (val * val) }.
  Inductive update_join_call : updop -> asks_update -> Prop :=
  | uc_table : forall t ps, keys_ok (filter truthy [t]) [] -> alias_args (filter truthy [t]) [] ps -> Forall (plain_table b) ps ->
      update_join_call (UTable t) (MkAU [PTables ps] [] [])
  | uc_join : forall ty arg t a, SpecLists.join_arg arg t a -> plain_table b (t, a) ->
      update_join_call (UJoin ty arg) (MkAU [PJoin (kind_of_join (j3 ty)) t a] [] [])
  | uc_on : forall a k ps, keys_ok a k -> some_data a -> pair_args a k ps -> Forall (on_pair b) ps ->
      update_join_call (UOn a k) (MkAU [POn ps] [] [])
  | uc_set : forall a k ps, keys_ok a k -> some_data a -> pair_args a k ps -> Forall set_in_pair ps ->
      update_join_call (USet a k) (MkAU [] ps [])
  | uc_where : forall a k ps, where_call b a k ps -> update_join_call (UWhere a k) (MkAU [] [] ps)
  | uc_allow : update_join_call UAllow (MkAU [] [] [])
  | uc_forbid : update_join_call UForbid (MkAU [] [] [])
  | uc_ignore : forall v, update_join_call (UIgnore v) (MkAU [] [] []).

  Context (sv : server) (find : combination -> path -> literal) (db : database).
  (** The combinations of rows of the tables asked for that satisfy the conditions of where. *)
  Definition asked_rows (from : list asked_table) (wh : list (val * val)) : list combination :=
    filter (fun c => where_holds b sv (find c) wh) (all_rows (numbered db) (map (tree_asked b sv find) from)).
  Definition asked_names (from : list asked_table) : list (path * path) := tables_in (map (tree_asked b sv find) from).
End Programs.
(** The assignments to columns of the table known as [n]: columns and values. *)
Definition for_table (own : path -> path) (n : path) (l : list (str * literal)) : list (str * literal) :=
  flat_map (fun a => if path_eqb (own (name_segments (fst a))) n then [(last (name_segments (fst a)) [], snd a)] else []) l.
(** All assignments made to row [i] of table [t]. *)
Definition row_assigned (own : path -> path) (names : list (path * path)) (cs : list combination) (l : list (str * literal)) (t : path) (i : nat) : list (str * literal) :=
  flat_map (fun y => if path_eqb (snd y) t && occurs cs (fst y) i then for_table own (fst y) l else []) names.
