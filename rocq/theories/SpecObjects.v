(** Specification: programs over several tables with conditions made by Q(...), Not(...), & and |.
    SpecDistinct.v, SpecJoin.v, SpecMulti.v: the calls other than where.  SpecProgramQ.v: the conditions.
    The calls of where are made under the backend the text is made for. *)
From Verif Require SpecLists.
From Verif Require Import Base NumFmt Value Render ParseArgs Build Queries History SpecLex SpecRef SpecLogic SpecHistory SpecArgs SpecErrors SpecWhole
  SpecSql SpecServer SpecProgram SpecProgramQ SpecJoin SpecMulti SpecDistinct.
Open Scope N_scope.

Section Programs.
  Context (E : env) (b : backend).
  Inductive select_with (bo : backend) : selop -> asks * list where_item -> Prop :=
  | sw_other : forall op g, option_call b (supper E) bo op g -> (forall a k, op <> SWhere a k) -> select_with bo op (g, [])
  | sw_where : forall a k ts, bo = b -> where_asks E b a k ts -> select_with bo (SWhere a k) (nothing, ts).
  Inductive delete_with (bo : backend) : delop -> asks_delete * list where_item -> Prop :=
  | dw_other : forall op g, delete_join_call b op g -> (forall a k, op <> DWhere a k) -> delete_with bo op (g, [])
  | dw_where : forall a k ts, bo = b -> where_asks E b a k ts -> delete_with bo (DWhere a k) (MkAD [] [] [], ts).
  Inductive update_with (bo : backend) : updop -> asks_update * list where_item -> Prop :=
  | uw_other : forall op g, update_join_call b op g -> (forall a k, op <> UWhere a k) -> update_with bo op (g, [])
  | uw_where : forall a k ts, bo = b -> where_asks E b a k ts -> update_with bo (UWhere a k) (MkAU [] [] [], ts).
  Context (sv : server) (find : combination -> path -> literal) (db : database).
  (** The combinations of rows of the tables asked for that satisfy the conditions. *)
  Definition rows_with (from : list asked_table) (ts : list where_item) : list combination :=
    filter (fun c => items_hold b sv (find c) ts) (all_rows (numbered db) (map (tree_asked b sv find) from)).
End Programs.
