(** Specification: what a history of calls asks for, for the clauses that are lists. *)
From Verif Require Import Base Value Queries SpecArgs.
Open Scope N_scope.

(** What each call of a history asks of the column list. *)
Definition columns_asked (ops : list selop) (asked : list (list (val * val))) : Prop :=
  Forall2 (fun op r => match op with
                       | SColumns a k => keys_ok a k /\ requests column_ok a k r
                       | _ => r = [] end) ops asked.
(** ORDER BY and GROUP BY: column names are text or int; a call is taken up to the first
    item whose direction is not one. *)
Definition order_call (up : str -> str) (a : list val) (k : list (str * val)) (r : list (val * val)) : Prop :=
  keys_ok a k /\
  (((forall ps, ~ alias_args a k ps) /\ r = []) \/
   exists ps, alias_args a k ps /\ Forall (fun p => name_arg (fst p)) ps /\
              accepted (fun p => exists d, direction up (snd p) d) ps r).
Definition order_asked (up : str -> str) (ops : list selop) (asked : list (list (val * val))) : Prop :=
  Forall2 (fun op r => match op with SOrderBy a k => order_call up a k r | _ => r = [] end) ops asked.
Definition group_asked (up : str -> str) (ops : list selop) (asked : list (list (val * val))) : Prop :=
  Forall2 (fun op r => match op with SGroupBy a k => order_call up a k r | _ => r = [] end) ops asked.
(** The list built from the requests [l]: first positions, last directions. *)
Definition ordered_list (up : str -> str) (l : list (val * val)) (out : list (val * sortd)) : Prop :=
  first_occurrences (map fst l) (map fst out) /\ forall c d, In (c, d) out -> last_direction up l c d.

(** SET of UPDATE: text columns, data values.  bool, float and Decimal are left out
    (1 == True == 1.0), and so are SQL objects. *)
Definition set_value (v : val) : Prop :=
  v = VNone \/ (exists s, v = VStr s) \/ (exists n, v = VInt n) \/ (exists b, v = VBytes b) \/
  (exists d, v = VDate d) \/ (exists d t, v = VDatetime d t).
Definition set_item_ok (p : val * val) : Prop := (exists c, fst p = VStr c) /\ set_value (snd p).
Definition inexact (v : val) : Prop := (exists b, v = VBool b) \/ (exists x, v = VFloat x) \/ (exists x, v = VDec x).
Definition set_data (p : val * val) : Prop := is_sql (fst p) = false /\ is_sql (snd p) = false /\ ~ inexact (snd p).
Inductive set_call (a : list val) (k : list (str * val)) : list (val * val) -> Prop :=
| sc_unreadable : (forall ps, ~ pair_args a k ps) -> set_call a k []
| sc_items : forall ps r, pair_args a k ps -> Forall set_data ps -> accepted set_item_ok ps r -> set_call a k r.
Definition set_asked (ops : list updop) (asked : list (list (val * val))) : Prop :=
  Forall2 (fun op r => match op with
                       | USet a k => keys_ok a k /\ (forall x, a = [x] -> is_sql x = false) /\ set_call a k r
                       | _ => r = [] end) ops asked.
(** Executing assignments from left to right: the last one of a column counts. *)
Definition assigned (l : list (val * val)) (c v : val) : Prop :=
  exists pre post, l = pre ++ (c, v) :: post /\ ~ In c (map fst post).
(** The value of column [c] that was the last to be given for the first time. *)
Definition newest (l : list (val * val)) (c v : val) : Prop :=
  exists pre post, l = pre ++ (c, v) :: post /\ ~ In (c, v) pre /\ forall w, In (c, w) post -> In (c, w) (pre ++ [(c, v)]).
(** No assignment of column [c] comes back after another one in between. *)
Definition never_back (l : list (val * val)) (c : val) : Prop :=
  forall v pre mid post, l = pre ++ (c, v) :: mid ++ (c, v) :: post -> forall w, In (c, w) mid -> w = v.

(** ** Independence of the order of calls *)
Inductive clause_name := CnOptions | CnColumns | CnTables | CnWhere | CnGroup | CnHaving | CnOrder | CnLimit | CnOutfile | CnLock.
Definition clause_of (op : selop) : clause_name :=
  match op with
  | SColumns _ _ => CnColumns
  | SFrom _ _ | SFromTable _ _ | SJoin _ _ | SOn _ _ => CnTables
  | SWhere _ _ => CnWhere | SHaving _ _ => CnHaving | SGroupBy _ _ => CnGroup | SOrderBy _ _ => CnOrder
  | SLimit _ _ | SOffset _ => CnLimit
  | SOut _ _ => CnOutfile
  | SOpt _ _ => CnOptions
  | SForUpdate _ => CnLock
  end.
(** All calls are for one clause. *)
Definition only {W} (c : clause_name) (H : list (W * selop)) : Prop := forall wo, In wo H -> clause_of (snd wo) = c.
Definition cn_eqb (a b : clause_name) : bool :=
  match a, b with
  | CnOptions, CnOptions | CnColumns, CnColumns | CnTables, CnTables | CnWhere, CnWhere | CnGroup, CnGroup
  | CnHaving, CnHaving | CnOrder, CnOrder | CnLimit, CnLimit | CnOutfile, CnOutfile | CnLock, CnLock => true
  | _, _ => false
  end.
(** For every clause the same calls in the same order. *)
Definition same_calls {W} (H H' : list (W * selop)) : Prop :=
  forall c, filter (fun wo => cn_eqb (clause_of (snd wo)) c) H = filter (fun wo => cn_eqb (clause_of (snd wo)) c) H'.

(** ** Joins *)
(** The table named by the argument of join(). *)
Inductive join_arg : val -> val -> val -> Prop :=
| ja_name : forall s, join_arg (VStr s) (VStr s) VNone
| ja_pair : forall v n a, group v [n; a] -> join_arg v n a
| ja_dict : forall n a, join_arg (VDict [(n, a)]) n a.
Definition table_ok_ (n a : val) : Prop :=
  ((exists s, n = VStr s) \/ is_sql n = true) /\ (alias_arg a \/ is_sql a = true).
(** Only the tables of the query are (perhaps) other ones. *)
Definition sel_but_tables (q q' : selq val) : Prop :=
  s_opts q' = s_opts q /\ s_cols q' = s_cols q /\ s_where q' = s_where q /\ s_group q' = s_group q /\
  s_having q' = s_having q /\ s_order q' = s_order q /\ s_limit q' = s_limit q /\ s_out q' = s_out q /\ s_forupd q' = s_forupd q.
Definition upd_but_tables (q q' : updq val) : Prop :=
  u_ignore q' = u_ignore q /\ u_vals q' = u_vals q /\ u_where q' = u_where q /\ u_allow q' = u_allow q.
Definition del_but_tables (q q' : delq val) : Prop :=
  d_ignore q' = d_ignore q /\ d_tabs q' = d_tabs q /\ d_where q' = d_where q /\ d_allow q' = d_allow q.
