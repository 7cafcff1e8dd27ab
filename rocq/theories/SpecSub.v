(** Specification: programs whose conditions contain queries, as a user writes them, and the
    rows they ask for.  SpecNestRows.v: rows, names and values on the server. *)
From Verif Require Import Base NumFmt Value Render ParseArgs Build Queries History SpecLex SpecRef SpecLogic SpecHistory SpecArgs SpecErrors SpecWhole
  SpecSql SpecServer SpecProgram SpecNestRows.
Open Scope N_scope.

(** ** What a user writes *)
(** The columns of a select: names, or one of Avg, Count, Max, Min, Sum. *)
Inductive ncols := CNames (l : list str) | CTotal (k : aggk) (distinct : bool) (c : str).
(** How pairs are handed to where, Q and Not: where(a=x, b=y), where([('a', x), ('b', y)]), ... *)
Definition arguments := list (val * val) -> list val * kwargs.
(** Conditions: Q(c1=v1, ...) and Not(c1=v1, ...); Q(e1, ...) and Not(e1, ...); e1 & e2, e1 | e2; exists(q). *)
Inductive nexp :=
| EPairs (negated : bool) (form : arguments) (l : list (str * sval))
| EAll (negated : bool) (l : list nexp)
| EBin (o : bop) (x y : nexp)
| EExists (q : nsel)
(** What a column is compared with: data; R(s), or a relation such as GT(R(s)); a query, or
    a relation such as IN(query). *)
with sval := SData (v : val) | SRef (rk : option relk) (s : str) | SSub (rk : option relk) (q : nsel)
(** select(...).from_(t) or from_((t, alias)), followed by calls of where. *)
with nsel := NSel (cols : ncols) (t : str) (alias : option str) (wh : list nwhere)
with nwhere := WPairs (form : arguments) (l : list (str * sval)) | WObjects (l : list nexp).

(** ** Python runs it *)
Section Run.
  Context (W : world).
  (** The calls one after another; the first exception ends the program. *)
  Fixpoint run_calls {Q Op} (step : world -> Q -> Op -> Q * outcome) (q : Q) (ops : list Op) : res Q :=
    match ops with
    | [] => Ok q
    | op :: rest => match step W q op with (q', Ok tt) => run_calls step q' rest | (_, Err e) => Err e end
    end.
  Definition cols_args (c : ncols) : list val :=
    match c with CNames l => map VStr l | CTotal k d c => [agg_distinct (mk_agg k (VStr c)) (VBool d)] end.
  Definition from_arg (t : str) (al : option str) : val :=
    match al with None => VStr t | Some a => VSeq KTuple [VStr t; VStr a] end.
  Definition related (rk : option relk) (x : val) : res val := match rk with None => Ok x | Some k => mk_rel k x end.
  Definition pairs_run (value_run : sval -> res val) (l : list (str * sval)) : res (list (val * val)) :=
    mapM (fun p => do x <- value_run (snd p); Ok (VStr (fst p), x)) l.
  Fixpoint exp_run (e : nexp) : res val :=
    match e with
    | EPairs n form l =>
        do ps <- pairs_run value_run l;
        let (a, k) := form ps in if n then mk_Not W a k else mk_Q W a k
    | EAll n l => do xs <- mapM exp_run l; if n then mk_Not W xs [] else mk_Q W xs []
    | EBin o x y => do u <- exp_run x; do v <- exp_run y; py_binop o u v
    | EExists q => do x <- sel_run q; Ok (VExists x)
    end
  with value_run (v : sval) : res val :=
    match v with
    | SData x => Ok x
    | SRef rk s => related rk (VSqlR (VStr s))
    | SSub rk q => do x <- sel_run q; related rk x
    end
  with sel_run (q : nsel) : res val :=
    match q with
    | NSel cols t al wh =>
        do ws <- mapM where_run wh;
        do s <- run_calls sel_step empty_select
                  (SColumns (cols_args cols) [] :: SFrom [from_arg t al] [] :: map (fun w => SWhere (fst w) (snd w)) ws);
        Ok (VSelect s)
    end
  with where_run (w : nwhere) : res (list val * kwargs) :=
    match w with
    | WPairs form l => do ps <- pairs_run value_run l; Ok (form ps)
    | WObjects l => do xs <- mapM exp_run l; Ok (xs, [])
    end.
  (** delete_from(t).where(...)... and update(t).set(...).where(...)... *)
  Definition delete_run (t : str) (wh : list nwhere) : res val :=
    do ws <- mapM where_run wh;
    do s <- run_calls del_step empty_delete (DFrom [VStr t] [] :: map (fun w => DWhere (fst w) (snd w)) ws);
    Ok (VDelete s).
  Definition update_run (t : str) (a : list val) (k : kwargs) (wh : list nwhere) : res val :=
    do ws <- mapM where_run wh;
    do s <- run_calls upd_step empty_update (UTable (VStr t) :: USet a k :: map (fun w => UWhere (fst w) (snd w)) ws);
    Ok (VUpdate s).
End Run.

(** ** The programs meant: names without the quote character, values as in SpecProgram.v,
    Not(...) and exists(...) only alone, as the library demands. *)
Definition stands_alone (e : nexp) : bool :=
  match e with EPairs n _ _ | EAll n _ => n | EBin _ _ _ => false | EExists _ => true end.
Definition side_by_side (l : list nexp) : Prop := l <> [] /\ (List.length l = 1%nat \/ forall e, In e l -> stands_alone e = false).
Definition faithful (form : arguments) (names : list str) : Prop :=
  forall ps, map fst ps = map VStr names -> let (a, k) := form ps in keys_ok a k /\ some_data a /\ pair_args a k ps.
(** The call of where adds a condition; without pairs it does not. *)
Definition gives_condition (w : nwhere) : Prop := match w with WPairs _ l => l <> [] | WObjects _ => True end.
Section Sensible.
  Context (b : backend).
  Definition all {A} (P : A -> Prop) : list A -> Prop :=
    fix go l := match l with [] => True | x :: r => P x /\ go r end.
  Definition cols_sensible (c : ncols) : Prop :=
    match c with
    | CNames l => NoDup l /\ Forall (fun c => good_name (quote_of b) c /\ ~ In 40 c) l      (* no name like COUNT(x), see C76 *)
    | CTotal _ _ c => good_name (quote_of b) c
    end.
  (** The text of R(s) may not be that of a str given as data: R('a.b.c.d') and '"a"."b"."c"."d"', R('*') and '*'. *)
  Definition column_name (s : str) : Prop :=
    good_name (quote_of b) s /\ (List.length (name_segments s) <= 3)%nat /\ ~ In (lit "*") (name_segments s).
  Definition comparing (rk : option relk) : Prop := match rk with Some k => operator_of k <> None | None => True end.
  Fixpoint exp_sensible (e : nexp) : Prop :=
    match e with
    | EPairs _ form l => faithful form (map fst l) /\ l <> [] /\
        all (fun p => good_name (quote_of b) (fst p) /\ value_sensible (snd p)) l
    | EAll _ l => side_by_side l /\ all exp_sensible l
    | EBin _ x y => exp_sensible x /\ exp_sensible y /\ stands_alone x = false /\ stands_alone y = false
    | EExists q => sel_sensible q
    end
  with value_sensible (v : sval) : Prop :=
    match v with
    | SData x => condition_value b x
    | SRef rk s => column_name s /\ comparing rk
    | SSub _ q => sel_sensible q
    end
  with sel_sensible (q : nsel) : Prop :=
    match q with
    | NSel cols t al wh =>
        cols_sensible cols /\ good_name (quote_of b) t /\ match al with Some a => good_name (quote_of b) a | None => True end /\
        all where_sensible wh
    end
  with where_sensible (w : nwhere) : Prop :=
    match w with
    | WPairs form l => faithful form (map fst l) /\ all (fun p => good_name (quote_of b) (fst p) /\ value_sensible (snd p)) l
    | WObjects l => side_by_side l /\ all exp_sensible l
    end.
End Sensible.

(** ** The rows asked for.  None: the server has to refuse, for a name is unknown or a query
    used as a value has several rows or columns. *)
Section Asked.
  Context (b : backend) (sv : server) (has : path -> str -> bool) (total : str -> bool -> list shown -> literal) (db : database).
  Notation lookup := (lookup has).
  Definition both (x y : option t3) : option t3 := let? u := x in let? v := y in Some (and3 u v).
  Definition every {A} (f : A -> option t3) : list A -> option t3 :=
    fix go l := match l with [] => Some (Some true) | x :: r => both (f x) (go r) end.
  Definition the_operator (rk : option relk) : option compop := match rk with Some k => operator_of k | None => Some CEq end.
  Fixpoint exp_says (sc : list scope) (e : nexp) {struct e} : option t3 :=
    match e with
    | EPairs n _ l =>
        let? t := every (fun p => let? x := lookup sc (name_segments (fst p)) in value_says sc x (snd p)) l in Some (negate_if n t)
    | EAll n l => let? t := every (exp_says sc) l in Some (negate_if n t)
    | EBin OpAnd x y => both (exp_says sc x) (exp_says sc y)
    | EBin OpOr x y => let? u := exp_says sc x in let? v := exp_says sc y in Some (or3 u v)
    | EExists q => let? rows := chosen sc q in Some (Some (negb (match rows with [] => true | _ => false end)))
    end
  (** What the value says of the cell x. *)
  with value_says (sc : list scope) (x : literal) (v : sval) {struct v} : option t3 :=
    match v with
    | SData d => Some (holds b sv x d)
    | SRef rk s => let? o := the_operator rk in let? y := lookup sc (name_segments s) in Some (compare3 (compare sv) o x y)
    | SSub rk q =>
        let? rows := chosen sc q in
        match rk with
        | Some RIn => in_rows sv false x rows
        | Some RNotIn => in_rows sv true x rows
        | _ => let? o := the_operator rk in let? y := scalar_of rows in Some (compare3 (compare sv) o x y)
        end
    end
  with chosen (sc : list scope) (q : nsel) {struct q} : option (list (list shown)) :=
    match q with
    | NSel cols t al wh =>
        let? rows := rows_of db sc (name_segments t) (name_segments (match al with Some a => a | None => t end))
                       (fun s => every (where_says s) wh) in
        match cols with
        | CTotal k d c => show_total has total (function_name k) d (name_segments c) rows
        | CNames [] => show_rows has [name_segments (lit "*")] rows
        | CNames l => show_rows has (map name_segments l) rows
        end
    end
  with where_says (sc : list scope) (w : nwhere) {struct w} : option t3 :=
    match w with
    | WPairs _ l => every (fun p => let? x := lookup sc (name_segments (fst p)) in value_says sc x (snd p)) l
    | WObjects l => every (exp_says sc) l
    end.
  (** The row of table t satisfies every call of where. *)
  Definition row_matches (t : str) (wh : list nwhere) (r : row) : option bool :=
    let? v := every (where_says [MkScope (name_segments t) (name_segments t) r]) wh in Some (is_true v).
  (** The rows DELETE leaves in the table t. *)
  Definition rows_left (t : str) (wh : list nwhere) : option (list row) :=
    filterO (fun r => let? k := row_matches t wh r in Some (negb k)) (db (name_segments t)).
End Asked.
(** What UPDATE does to a row that satisfies its conditions or does not. *)
Definition new_row (b : backend) (ps : list (val * val)) (hit : bool) (old new : row) : Prop :=
  forall c, new c = if hit then match last_for c (stores b ps) with Some l => l | None => old c end else old c.
