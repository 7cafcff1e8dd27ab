(** Model of the functions and names a program finds in the module: sqlpuzzle/__init__.py.
    configure (54-68) is Backend.set_backend. *)
From Verif Require Import Base Value Render ParseArgs Build Queries.
Open Scope N_scope.

(** ** Python's binding of arguments to the parameters of a def, each with its default if it has one.
    Messages of TypeError are not modelled. *)
Definition keyword (n : str) (kwds : kwargs) : option val :=
  option_map snd (find (fun p => seqb (fst p) n) kwds).
Definition other_keywords (n : str) (kwds : kwargs) : kwargs := filter (fun p => negb (seqb (fst p) n)) kwds.
Fixpoint bind_params (ps : list (str * option val)) (args : list val) (kwds : kwargs) : res (list val) :=
  match ps, args with
  | [], [] => match kwds with [] => Ok [] | _ => Err ETypeError end
  | [], _ :: _ => Err ETypeError
  | (n, _) :: ps', a :: args' =>
      match keyword n kwds with
      | Some _ => Err ETypeError
      | None => do vs <- bind_params ps' args' kwds; Ok (a :: vs)
      end
  | (n, d) :: ps', [] =>
      match keyword n kwds, d with
      | Some v, _ | None, Some v => do vs <- bind_params ps' [] (other_keywords n kwds); Ok (v :: vs)
      | None, None => Err ETypeError
      end
  end.
(** def f(expr) and def f(expr=None). *)
Definition with_expr {A} (d : option val) (args : list val) (kwds : kwargs) (f : val -> res A) : res A :=
  do vs <- bind_params [(lit "expr", d)] args kwds; f (hd VNone vs).
(** def f( *args): keywords are refused. *)
Definition no_keywords {A} (kwds : kwargs) (x : res A) : res A := match kwds with [] => x | _ => Err ETypeError end.
Definition map_ok {A B} (f : A -> B) (x : res A) : res B := do a <- x; Ok (f a).

(** avg 145-149, count 159-163, max 173-177, min 187-191, sum 201-205. *)
Definition m_avg args kwds := with_expr None args kwds (fun e => Ok (mk_agg FAvg e)).
Definition m_count args kwds := with_expr (Some VNone) args kwds (fun e => Ok (mk_agg FCount e)).
Definition m_max args kwds := with_expr None args kwds (fun e => Ok (mk_agg FMax e)).
Definition m_min args kwds := with_expr None args kwds (fun e => Ok (mk_agg FMin e)).
Definition m_sum args kwds := with_expr None args kwds (fun e => Ok (mk_agg FSum e)).
(** ....distinct(): its parameter is True by default, functions.py:52-54. *)
Definition distinct_call (f : val) : val := agg_distinct f (VBool true).
(** avg_distinct 152-156, count_distinct 166-170, max_distinct 180-184, min_distinct 194-198, sum_distinct 208-212. *)
Definition m_avg_distinct args kwds := with_expr None args kwds (fun e => map_ok distinct_call (m_avg [e] [])).
Definition m_count_distinct args kwds := with_expr (Some VNone) args kwds (fun e => map_ok distinct_call (m_count [e] [])).
Definition m_max_distinct args kwds := with_expr None args kwds (fun e => map_ok distinct_call (m_max [e] [])).
Definition m_min_distinct args kwds := with_expr None args kwds (fun e => map_ok distinct_call (m_min [e] [])).
Definition m_sum_distinct args kwds := with_expr None args kwds (fun e => map_ok distinct_call (m_sum [e] [])).
(** convert 231-237. *)
Definition m_convert (W : world) args kwds :=
  do vs <- bind_params [(lit "expr", None); (lit "type_", Some VNone)] args kwds; mk_convert W (nth 0 vs VNone) (nth 1 vs VNone).
(** customsql.py:21, sqlvalue.py:66, 173: the classes imported as customsql, sqlvalue, sqlreference, 9. *)
Definition m_customsql (W : world) args kwds :=
  do vs <- bind_params [(lit "string", Some (VStr []))] args kwds; mk_custom W (hd VNone vs).
Definition m_sqlvalue args kwds := do vs <- bind_params [(lit "value", None)] args kwds; Ok (VSqlV (hd VNone vs)).
Definition m_sqlreference args kwds := do vs <- bind_params [(lit "value", None)] args kwds; Ok (VSqlR (hd VNone vs)).

(** sqlpuzzle.NAME( *args, **kwds): the defs of the module and the shortcuts 243-245. *)
Definition call_module (W : world) (name : str) (args : list val) (kwds : kwargs) : res val :=
  let is s := seqb name s in
  if is (lit "select") then map_ok VSelect (mk_select W args kwds)
  else if is (lit "select_from") then map_ok VSelect (mk_select_from W args kwds)
  else if is (lit "insert") then do _ <- bind_params [] args kwds; Ok (VInsert empty_insert)
  else if is (lit "insert_into") then do vs <- bind_params [(lit "table", None)] args kwds; map_ok VInsert (mk_insert_into W (hd VNone vs))
  else if is (lit "update") then do vs <- bind_params [(lit "table", None)] args kwds; map_ok VUpdate (mk_update W (hd VNone vs))
  else if is (lit "delete") then no_keywords kwds (map_ok VDelete (mk_delete W args))
  else if is (lit "delete_from") then map_ok VDelete (mk_delete_from W args kwds)
  else if is (lit "Q") then mk_Q W args kwds
  else if is (lit "Not") then mk_Not W args kwds
  else if is (lit "exists") then with_expr None args kwds (fun e => Ok (VExists e))
  else if is (lit "avg") then m_avg args kwds
  else if is (lit "avg_distinct") then m_avg_distinct args kwds
  else if is (lit "count") then m_count args kwds
  else if is (lit "count_distinct") then m_count_distinct args kwds
  else if is (lit "max") then m_max args kwds
  else if is (lit "max_distinct") then m_max_distinct args kwds
  else if is (lit "min") then m_min args kwds
  else if is (lit "min_distinct") then m_min_distinct args kwds
  else if is (lit "sum") then m_sum args kwds
  else if is (lit "sum_distinct") then m_sum_distinct args kwds
  else if is (lit "concat") then no_keywords kwds (mk_concat W args)
  else if is (lit "group_concat") then no_keywords kwds (mk_group_concat W args)
  else if is (lit "convert") then m_convert W args kwds
  else if is (lit "customsql") || is (lit "C") then m_customsql W args kwds
  else if is (lit "sqlvalue") || is (lit "V") then m_sqlvalue args kwds
  else if is (lit "sqlreference") || is (lit "R") then m_sqlreference args kwds
  else Err EAttributeError.
