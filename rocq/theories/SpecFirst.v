(** Specification: the lists of columns, of ORDER BY and of GROUP BY built by any history
    of calls, whatever objects the arguments are.  Which of two entries are "the same" is
    decided by Python's == at the time of the call ([eq], with the backend of the call as
    its first argument). *)
From Coq Require Import Permutation Sorted.
From Verif Require Import Base Value Build Queries SpecArgs SpecRead SpecHistory SpecLists.
Open Scope N_scope.

(** What each call of a history answers. *)
Fixpoint outcomes {W Q Op} (step : W -> Q -> Op -> Q * outcome) (q : Q) (H : list (W * Op)) : list outcome :=
  match H with
  | [] => []
  | (w, op) :: H' => snd (step w q op) :: outcomes step (fst (step w q op)) H'
  end.

(** A dictionary given as the only argument has text keys only, or int keys only. *)
Definition usual (a : list val) : Prop := forall items, a = [VDict items] -> sortable items.
(** The items of a call: as documented; the items of a dictionary with other keys (SQL
    objects, for example) come in some order. *)
Definition reads (a : list val) (k : list (str * val)) (ps : list (val * val)) : Prop :=
  (usual a -> alias_args a k ps) /\ (forall items, a = [VDict items] -> Permutation items ps).
(** What is taken of a call [f(a.., **k)] answering [o]: the items are read from the
    arguments; all are taken if the call succeeds, and the ones before the offending one
    if it does not. *)
Definition taken (a : list val) (k : list (str * val)) (o : outcome) (r : list (val * val)) : Prop :=
  (exists ps, reads a k ps /\ (o = Ok tt /\ r = ps \/ o <> Ok tt /\ exists p rest, ps = r ++ p :: rest)) \/
  ((usual a -> forall ps, ~ alias_args a k ps) /\ o <> Ok tt /\ r = []).
Definition taken_columns (op : selop) (o : outcome) (r : list (val * val)) : Prop :=
  match op with SColumns a k => taken a k o r | _ => r = [] end.
Definition taken_order (op : selop) (o : outcome) (r : list (val * val)) : Prop :=
  match op with SOrderBy a k => taken a k o r | _ => r = [] end.
Definition taken_group (op : selop) (o : outcome) (r : list (val * val)) : Prop :=
  match op with SGroupBy a k => taken a k o r | _ => r = [] end.

(** A history with the answers, and what was taken of each call, tagged with its backend. *)
Inductive history_takes (part : selop -> outcome -> list (val * val) -> Prop)
  : list (backend * selop) -> list outcome -> list (backend * (val * val)) -> Prop :=
| ht_nil : history_takes part [] [] []
| ht_call : forall b op H o os r items, part op o r -> history_takes part H os items ->
    history_takes part ((b, op) :: H) (o :: os) (map (pair b) r ++ items).

(** Distinct items in order of first request. *)
Inductive distinct_first {I A} (eq : I -> A -> A -> res bool) : list (I * A) -> list A -> Prop :=
| df_nil : distinct_first eq [] []
| df_new : forall l out i x, distinct_first eq l out -> (forall y, In y out -> eq i y x = Ok false) ->
    distinct_first eq (l ++ [(i, x)]) (out ++ [x])
| df_old : forall l out i x y, distinct_first eq l out -> In y out -> eq i y x = Ok true ->
    distinct_first eq (l ++ [(i, x)]) out.

(** First position, last direction. *)
Inductive last_wins {I} (eq : I -> val -> val -> res bool) (dir : val -> sortd -> Prop)
  : list (I * (val * val)) -> list (val * sortd) -> Prop :=
| lw_nil : last_wins eq dir [] []
| lw_new : forall l out i c v d, last_wins eq dir l out -> dir v d ->
    (forall y, In y out -> eq i (fst y) c = Ok false) ->
    last_wins eq dir (l ++ [(i, (c, v))]) (out ++ [(c, d)])
| lw_old : forall l pre c' d' post i c v d, last_wins eq dir l (pre ++ (c', d') :: post) -> dir v d ->
    (forall y, In y pre -> eq i (fst y) c = Ok false) -> eq i c' c = Ok true ->
    last_wins eq dir (l ++ [(i, (c, v))]) (pre ++ (c', d) :: post).

(** A column can be text, an int or an SQL object; an alias text, None or an SQL object. *)
Definition named (v : val) : Prop := name_arg v \/ is_sql v = true.
Definition aliased (v : val) : Prop := alias_arg v \/ is_sql v = true.
