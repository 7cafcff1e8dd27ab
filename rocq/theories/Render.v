(** Rendering: every __str__ of the library.

    [str_body E r v] is the body of str(v); [r] stands for the recursive str() on
    sub-objects.  [text E v] is str(v) itself: the recursion is closed by
    iterating on the nesting depth of [v] (RenderFacts.v proves
    text E v = str_body E (text E) v, so the iteration is only a device). *)
From Verif Require Import Base NumFmt Value Backend Eq.
Open Scope N_scope.

Definition paren (s : str) : str := [c_lp] ++ s ++ [c_rp].

(** str() of plain data: exact for str and int, otherwise the oracle. *)
Definition pytext (E : env) (v : val) : res str :=
  match v with
  | VStr s => Ok s
  | VInt z => Ok (z_dec z)
  | _ => match e_pystr E v with Some s => Ok s | None => Err EUnmodelled end
  end.

(** SqlValue._undefined: sqlvalue.py:120-124. *)
Definition undefined (E : env) (v : val) : str :=
  match pytext E v with
  | Ok s => lit "<undefined value " ++ s ++ lit ">"
  | Err _ => lit "<undefined value>"
  end.

(** _escape_value: sqlvalue.py:13-21 (three replacements, in this order). *)
Definition escape_value (s : str) : str :=
  replace1 c_nl [c_bs; c_n] (replace1 c_sq [c_sq; c_sq] (replace1 c_bs [c_bs; c_bs] s)).

(** SqlValue._string: sqlvalue.py:84-88. *)
Definition sql_string (b : backend) (s : str) : str :=
  if is_reference b s then reference b s else [c_sq] ++ escape_value s ++ [c_sq].

(** str(SqlValue(v)): sqlvalue.py:40-127. *)
Fixpoint sqlvalue (E : env) (r : val -> res str) (v : val) {struct v} : res str :=
  match v with
  | VNone => Ok (lit "NULL")                                   (* 116-118 *)
  | VBool b => Ok (be_boolean (e_be E) b)                      (* 99-100 *)
  | VInt z => Ok (z_dec z)                                     (* 93-94 *)
  | VFloat x => Ok (fmt5 false x)                              (* 96-97 *)
  | VDec x => Ok (fmt5 true x)
  | VStr s => Ok (sql_string (e_be E) s)                       (* 84-88 *)
  | VBytes b => Ok (be_bytes (e_be E) b)                       (* 90-91 *)
  | VDate d => Ok ([c_sq] ++ date_iso d ++ [c_sq])             (* 102-106 *)
  | VDatetime d t => Ok ([c_sq] ++ datetime_iso d t ++ [c_sq])
  | VSeq k l =>                                                (* 108-111 *)
      if truthy v
      then do ts <- mapM (sqlvalue E r) l; Ok (paren (sjoin (lit ", ") ts))
      else Err EInvalidArgument
  | VSelect _ | VUnion _ _ _ => do s <- r v; Ok (paren s)      (* 113-114 *)
  | VDict _ | VOther _ => Ok (undefined E v)                   (* 120-124 *)
  | _ => r v                                                   (* 81-82 *)
  end.

(** str(SqlReference(v)): sqlvalue.py:130-156; bool is skipped by line 73-74. *)
Definition sqlref (E : env) (r : val -> res str) (v : val) : res str :=
  match v with
  | VStr s => Ok (reference (e_be E) s)
  | VInt z => Ok (z_dec z)
  | VSelect _ | VUnion _ _ _ => do s <- r v; Ok (paren s)
  | _ => if is_sql v then r v else Ok (undefined E v)
  end.

(** _string_representation: relations.py. *)
Definition rel_str (k : relk) : str :=
  match k with
  | REq => lit "=" | RNe => lit "!=" | RGt => lit ">" | RGe => lit ">=" | RLt => lit "<"
  | RLe => lit "<=" | RLike => lit "LIKE" | RNotLike => lit "NOT LIKE" | RRegexp => lit "REGEXP"
  | RIn => lit "IN" | RNotIn => lit "NOT IN" | RIs => lit "IS" | RIsNot => lit "IS NOT"
  end.

(** _RelationValue._format_condition: relations.py:69-74. *)
Definition fmt_plain (col : res str) (k : relk) (v : res str) : res str :=
  do c <- col; do x <- v; Ok (c ++ lit " " ++ rel_str k ++ lit " " ++ x).

(** IN._format_condition 190-208 and NOT_IN._format_condition 229-247;
    [tr] is value_transformer. *)
Definition fmt_in (col : res str) (k : relk) (tr : val -> res str) (v : val) : res str :=
  match v with
  | VSeq _ l =>
      let l' := filter (fun x => negb (is_none x)) l in
      let value := VSeq KList l' in
      if existsb is_none l then
        if is_nilb l' then
          match k with
          | RNotIn => do c <- col; Ok (c ++ lit " IS NOT NULL")
          | _ => do c <- col; Ok (c ++ lit " IS NULL")
          end
        else
          match k with
          | RNotIn => do c <- col; do x <- tr value;
                      Ok (lit "(" ++ c ++ lit " NOT IN " ++ x ++ lit " AND " ++ c ++ lit " IS NOT NULL)")
          | _ => do c <- col; do x <- tr value;
                 Ok (lit "(" ++ c ++ lit " IN " ++ x ++ lit " OR " ++ c ++ lit " IS NULL)")
          end
      else fmt_plain col k (tr value)
  | _ => fmt_plain col k (tr v)
  end.
Definition fmt_condition (col : res str) (k : relk) (tr : val -> res str) (v : val) : res str :=
  match k with
  | RIn | RNotIn => fmt_in col k tr v
  | _ => fmt_plain col k (tr v)
  end.

(** value_transformer: conditions.py:50, tables.py:56. *)
Definition transformer (E : env) (r : val -> res str) (k : condk) (v : val) : val -> res str :=
  match k, v with
  | KOn, VStr _ => sqlref E r
  | _, _ => sqlvalue E r
  end.

(** QueryParts.__str__: queryparts.py:46-51, given the rendered parts. *)
Definition parts_str (keyword default sep : str) (ts : list str) : str :=
  if is_nilb ts then default
  else if is_nilb keyword then sjoin sep ts
  else keyword ++ [c_sp] ++ sjoin sep ts.

(** Column.__str__: columns.py:13-19.  Table.__str__ without joins: tables.py:72-78. *)
Definition aliased_str (E : env) (r : val -> res str) (p : val * val) : res str :=
  match p with (name, alias) =>
    if truthy alias
    then do n <- sqlref E r name; do a <- sqlref E r alias; Ok (n ++ lit " AS " ++ a)
    else sqlref E r name
  end.
Definition columns_str (E : env) (r : val -> res str) (cols : list (val * val)) : res str :=
  do ts <- mapM (aliased_str E r) cols; Ok (parts_str [] (lit "*") (lit ", ") ts).

(** Order.__str__: order.py:18-24. *)
Definition order_str (E : env) (r : val -> res str) (p : val * sortd) : res str :=
  match p with
  | (c, Asc) => sqlref E r c
  | (c, Desc) => do x <- sqlref E r c; Ok (x ++ lit " DESC")
  end.
Definition orders_str (E : env) (r : val -> res str) (keyword : str) (os : list (val * sortd)) : res str :=
  do ts <- mapM (order_str E r) os; Ok (parts_str keyword [] (lit ", ") ts).

(** Conditions: conditions.py:93-95 with the keyword of where.py:8 / having.py:11. *)
Definition conds_str (r : val -> res str) (keyword : str) (ps : list val) : res str :=
  do ts <- mapM r ps; Ok (parts_str keyword [] (lit " AND ") ts).

(** Grouping of joins, the loop of tables.py:148-157.  A group is its first
    join and the others in order. *)
Definition jgroup := (join val * list (join val))%type.
Definition same_join (r : val -> res str) (a b : join val) : res bool :=
  rand (rand (pyeq r (j_name a) (j_name b)) (pyeq r (j_alias a) (j_alias b)))
       (list_eq (pyeq r) (j_ons a) (j_ons b)).
Fixpoint group_add (r : val -> res str) (j : join val) (gs : list jgroup) : res (list jgroup) :=
  match gs with
  | [] => Ok [(j, [])]
  | (h, t) :: rest =>
      match same_join r h j with
      | Ok true => Ok ((h, t ++ [j]) :: rest)
      | Ok false => match group_add r j rest with
                    | Ok rest' => Ok ((h, t) :: rest')
                    | Err e => Err e
                    end
      | Err e => Err e
      end
  end.
Fixpoint group_joins (r : val -> res str) (js : list (join val)) (gs : list jgroup) : res (list jgroup) :=
  match js with
  | [] => Ok gs
  | j :: rest => match group_add r j gs with
                 | Ok gs' => group_joins r rest gs'
                 | Err e => Err e
                 end
  end.
Definition is_inner (j : join val) : bool := jointy_eqb (j_type j) JInner.
(** tables.py:160-167. *)
Definition settle_group (g : jgroup) : list (join val) :=
  match g with (h, t) =>
    if negb (is_nilb t) && existsb is_inner (h :: t)
    then [MkJoin JInner (j_name h) (j_alias h) (j_ons h)]
    else if negb (is_nilb t) && forallb (fun j => jointy_eqb (j_type j) (j_type h)) (h :: t)
    then [h]
    else h :: t
  end.
(** Table._minimize_joins: tables.py:143-167; the new value of self._joins. *)
Definition minimize (r : val -> res str) (js : list (join val)) : res (list (join val)) :=
  do gs <- group_joins r js []; Ok (flat_map settle_group gs).

(** JOIN_TYPES: tables.py:16-21. *)
Definition jointy_str (t : jointy) : str :=
  match t with
  | JInner => lit "JOIN" | JLeft => lit "LEFT JOIN" | JRight => lit "RIGHT JOIN" | JFull => lit "FULL JOIN"
  end.
(** tables.py:83-87; ON conditions are OnConditions: no keyword. *)
Definition join_str (E : env) (r : val -> res str) (j : join val) : res str :=
  do on <- (if is_nilb (j_ons j) then Ok [] else
            do o <- conds_str r [] (j_ons j); Ok (lit " ON " ++ o));
  do t <- aliased_str E r (j_name j, j_alias j);
  Ok (jointy_str (j_type j) ++ lit " " ++ t ++ on).
(** Table.__str__: tables.py:71-90. *)
Definition table_str (E : env) (r : val -> res str) (t : table val) : res str :=
  do n <- aliased_str E r (tb_name t, tb_alias t);
  if is_nilb (tb_joins t) then Ok n
  else do js <- minimize r (tb_joins t);
       do ts <- mapM (join_str E r) js;
       Ok (n ++ lit " " ++ sjoin (lit " ") ts).
Definition tables_str (E : env) (r : val -> res str) (keyword : str) (ts : list (table val)) : res str :=
  do xs <- mapM (table_str E r) ts; Ok (parts_str keyword [] (lit ", ") xs).

(** Value.__str__: values.py:14-18. *)
Definition value_str (E : env) (r : val -> res str) (c v : val) : res str :=
  do x <- sqlref E r c; do y <- sqlvalue E r v; Ok (x ++ lit " = " ++ y).
(** Values.__str__ (QueryParts). *)
Definition values_str (r : val -> res str) (keyword : str) (ps : list val) : res str :=
  do ts <- mapM r ps; Ok (parts_str keyword [] (lit ", ") ts).

(** Sorting of texts. *)
Fixpoint sinsert (x : str) (l : list str) : list str :=
  match l with
  | [] => [x]
  | y :: r => if sltb x y then x :: l else y :: sinsert x r
  end.
Fixpoint ssort (l : list str) : list str :=
  match l with [] => [] | x :: r => sinsert x (ssort r) end.
Fixpoint suniq (l : list str) : list str :=     (* set of texts, as a list *)
  match l with
  | [] => []
  | x :: r => if existsb (seqb x) r then suniq r else x :: suniq r
  end.

(** value.column_name of an element of Values._parts.  Only Value (and, not
    reachable through the API, Condition) has the attribute.  SQL objects as
    column names are hashed by identity, which the model does not decide. *)
Definition part_column (p : val) : res str :=
  match p with
  | VValue (VStr c) _ => Ok c
  | VValue _ _ => Err EUnmodelled
  | VCond _ _ _ _ => Err EUnmodelled
  | _ => Err EAttributeError
  end.
(** MultipleValues.all_columns: values.py:78-85. *)
Definition all_columns (rows : list (list val)) : res (list str) :=
  do cs <- mapM part_column (List.concat rows); Ok (ssort (suniq cs)).
(** The value a row gives to a column: values.py:66-68 (dict: last one wins). *)
Definition row_value (row : list val) (c : str) : val :=
  fold_left (fun acc p => match p with
                          | VValue (VStr c') v => if seqb c c' then v else acc
                          | _ => acc
                          end) row VNone.
(** Values.values(column_order): values.py:63-68. *)
Definition row_str (E : env) (r : val -> res str) (cols : list str) (row : list val) : res str :=
  do ts <- mapM (fun c => sqlvalue E r (row_value row c)) cols; Ok (paren (sjoin (lit ", ") ts)).
(** MultipleValues.__str__: values.py:72-92. *)
Definition rows_str (E : env) (r : val -> res str) (rows : list (list val)) : res str :=
  do cols <- all_columns rows;
  do ts <- mapM (row_str E r cols) rows;
  Ok (paren (sjoin (lit ", ") (map (reference (e_be E)) cols)) ++ lit " VALUES " ++ sjoin (lit ", ") ts).

(** Limit.__str__ / is_set: limit.py:13-32. *)
Definition limit_str (l : limits) : str :=
  let a := match l_limit l with Some z => lit "LIMIT " ++ z_dec z | None => [] end in
  match l_offset l with
  | Some z => (if is_nilb a then [] else a ++ lit " ") ++ lit "OFFSET " ++ z_dec z
  | None => a
  end.
Definition limit_set (l : limits) : bool :=
  match l_limit l, l_offset l with None, None => false | _, _ => true end.

(** IntoOutfile.__str__: intooutfile.py:20-28. *)
Definition out_opt (E : env) (r : val -> res str) (kw : str) (o : option val) : res str :=
  match o with
  | None => Ok []
  | Some v => do x <- sqlvalue E r v; Ok (kw ++ x)
  end.
Definition out_str (E : env) (r : val -> res str) (o : outfile val) : res str :=
  do a <- out_opt E r (lit "INTO OUTFILE ") (o_file o);
  do b <- out_opt E r (lit " FIELDS TERMINATED BY ") (o_fields o);
  do c <- out_opt E r (lit " LINES TERMINATED BY ") (o_lines o);
  do d <- out_opt E r (lit " OPTIONALLY ENCLOSED BY ") (o_encl o);
  Ok (a ++ b ++ c ++ d).
Definition out_set (o : outfile val) : bool := match o_file o with Some _ => true | None => false end.

(** SelectOptions: the texts of the options that are not off.
    selectoptions.py:8-44, options.py:16-21. *)
Definition selopts_texts (o : selopts) : list str :=
  (match so_cache o with CacheOff => [] | CacheOn => [lit "SQL_CACHE"] | CacheNo => [lit "SQL_NO_CACHE"] end)
  ++ (match so_dup o with DupOff => [] | DupAll => [lit "ALL"] | DupDistinct => [lit "DISTINCT"]
                     | DupDistinctrow => [lit "DISTINCTROW"] end)
  ++ (if so_small o then [lit "SQL_SMALL_RESULT"] else [])
  ++ (if so_big o then [lit "SQL_BIG_RESULT"] else [])
  ++ (if so_buffer o then [lit "SQL_BUFFER_RESULT"] else [])
  ++ (if so_calc o then [lit "SQL_CALC_FOUND_ROWS"] else [])
  ++ (if so_straight o then [lit "STRAIGHT_JOIN"] else [])
  ++ (if so_high o then [lit "HIGH_PRIORITY"] else []).
Definition selopts_str (o : selopts) : str := sjoin (lit " ") (ssort (selopts_texts o)).
Definition selopts_set (o : selopts) : bool := negb (is_nilb (selopts_texts o)).

(** One entry of the context of Query.__str__: query.py:22-27. *)
Definition part_ctx (is_set : bool) (t : res str) : res str :=
  if is_set then do x <- t; Ok (c_sp :: x) else Ok [].

(** Select: select.py:48-52 through query.py:20-28; the parts are rendered in
    alphabetical order of their keys (visible only in which error comes first). *)
Definition select_str (E : env) (r : val -> res str) (q : selq val) : res str :=
  do columns <- part_ctx true (columns_str E r (s_cols q));
  do group_by <- part_ctx (negb (is_nilb (s_group q))) (orders_str E r (lit "GROUP BY") (s_group q));
  do having <- part_ctx (negb (is_nilb (s_having q))) (conds_str r (lit "HAVING") (s_having q));
  do into_outfile <- part_ctx (out_set (s_out q)) (out_str E r (s_out q));
  do limit <- part_ctx (limit_set (s_limit q)) (Ok (limit_str (s_limit q)));
  do order_by <- part_ctx (negb (is_nilb (s_order q))) (orders_str E r (lit "ORDER BY") (s_order q));
  do for_update <- part_ctx (s_forupd q) (Ok (lit "FOR UPDATE"));
  do options <- part_ctx (selopts_set (s_opts q)) (Ok (selopts_str (s_opts q)));
  do tables <- part_ctx (negb (is_nilb (s_tabs q))) (tables_str E r (lit "FROM") (s_tabs q));
  do where_ <- part_ctx (negb (is_nilb (s_where q))) (conds_str r (lit "WHERE") (s_where q));
  Ok (strip (lit "SELECT" ++ options ++ columns ++ tables ++ where_ ++ group_by ++ having
             ++ order_by ++ limit ++ into_outfile ++ for_update)).

(** Delete: delete.py:37, 44-47. *)
Definition delete_str (E : env) (r : val -> res str) (q : delq val) : res str :=
  if is_nilb (d_where q) && negb (d_allow q) then Err EConfirmDelete
  else
    do options <- part_ctx (d_ignore q) (Ok (lit "IGNORE"));
    do references <- part_ctx (negb (is_nilb (d_refs q))) (tables_str E r [] (d_refs q));
    do tables <- part_ctx (negb (is_nilb (d_tabs q))) (tables_str E r [] (d_tabs q));
    do where_ <- part_ctx (negb (is_nilb (d_where q))) (conds_str r (lit "WHERE") (d_where q));
    Ok (strip (lit "DELETE" ++ options ++ tables ++ lit " FROM" ++ references ++ where_)).

(** Update: update.py:37, 44-47. *)
Definition update_str (E : env) (r : val -> res str) (q : updq val) : res str :=
  if is_nilb (u_where q) && negb (u_allow q) then Err EConfirmUpdate
  else
    do tables <- part_ctx (negb (is_nilb (u_tabs q))) (tables_str E r [] (u_tabs q));
    do options <- part_ctx (u_ignore q) (Ok (lit "IGNORE"));
    do values <- part_ctx (negb (is_nilb (u_vals q))) (values_str r [] (u_vals q));
    do where_ <- part_ctx (negb (is_nilb (u_where q))) (conds_str r (lit "WHERE") (u_where q));
    Ok (strip (lit "UPDATE" ++ options ++ tables ++ lit " SET" ++ values ++ where_)).

(** Insert: insert.py:57-60; InsertKeyword 9-22; OnDuplicateKeyUpdate
    (onduplicatekeyupdate.py:7), OnConflictDoUpdate (onconflictdoupdate.py:13-15). *)
Definition conflict_keyword (E : env) (c : option str) : str :=
  lit "ON CONFLICT (" ++ (match c with Some s => reference (e_be E) s | None => [] end) ++ lit ") DO UPDATE".
Definition insert_str (E : env) (r : val -> res str) (q : insq val) : res str :=
  do options <- part_ctx (i_ignore q) (Ok (lit "IGNORE"));
  do keyword <- part_ctx true (Ok (if i_replace q then lit "REPLACE" else lit "INSERT"));
  do conflict <- part_ctx (negb (is_nilb (i_upd q)))
                   (values_str r (conflict_keyword E (i_conflict q)) (i_upd q));
  do dup <- part_ctx (negb (is_nilb (i_dup q))) (values_str r (lit "ON DUPLICATE KEY UPDATE") (i_dup q));
  do tables <- part_ctx (negb (is_nilb (i_tabs q))) (tables_str E r [] (i_tabs q));
  do values <- part_ctx (negb (is_nilb (i_rows q))) (rows_str E r (i_rows q));
  Ok (strip (keyword ++ options ++ lit " INTO" ++ tables ++ values ++ dup ++ conflict)).

(** ConditionsOfConditions.__str__: conditions.py:125-135. *)
Definition bop_str (o : bop) : str := match o with OpAnd => lit "AND" | OpOr => lit "OR" end.
Definition needs_brackets (v : val) : bool :=
  match v with VConds ps => Nat.ltb 1 (List.length ps) | _ => false end.
Definition bracket (v : val) (s : str) : str := if needs_brackets v then paren s else s.

(** functions.py:66-93. *)
Definition agg_name (k : aggk) : str :=
  match k with FAvg => lit "AVG" | FCount => lit "COUNT" | FMax => lit "MAX" | FMin => lit "MIN" | FSum => lit "SUM" end.
(** Function._get_expr_as_string: functions.py:33-36; Count: 78-81. *)
Definition expr_str (E : env) (r : val -> res str) (e : val) : res str :=
  match e with
  | VSeq KList l | VSeq KTuple l => do ts <- mapM (sqlref E r) l; Ok (sjoin (lit ", ") ts)
  | _ => sqlref E r e
  end.
Definition agg_expr (E : env) (r : val -> res str) (k : aggk) (e : val) : res str :=
  match k with
  | FCount => do star <- pyeq r e (VStr (lit "*")); if (star : bool) then r e else expr_str E r e
  | _ => expr_str E r e
  end.

Definition str_body (E : env) (r : val -> res str) (v : val) : res str :=
  match v with
  | VCustom s => Ok s                                           (* customsql.py:25-26 *)
  | VSqlV x => sqlvalue E r x
  | VSqlR x => sqlref E r x
  | VRel k x => do s <- r x; Ok ([c_dq] ++ rel_str k ++ lit " " ++ s ++ [c_dq])   (* relations.py:31-35 *)
  | VCond k c rk x =>                                           (* conditions.py:49-50, tables.py:55-57 *)
      fmt_condition (sqlref E r c) rk (transformer E r k x) x
  | VValue c x => value_str E r c x
  | VConds ps => conds_str r [] ps
  | VCoC o a b =>
      do x <- r a; do y <- r b;
      Ok (paren (bracket a x ++ lit " " ++ bop_str o ++ lit " " ++ bracket b y))
  | VNot ps => do s <- conds_str r [] ps; Ok (lit "NOT" ++ paren s)   (* functions.py:25-31 *)
  | VExists x => do s <- r x; Ok (lit "EXISTS" ++ paren s)      (* where.py:16-17 *)
  | VAgg k d e =>                                               (* functions.py:56-63 *)
      do s <- agg_expr E r k e;
      Ok (agg_name k ++ paren ((if d then lit "DISTINCT " else []) ++ s))
  | VConcat cols => do s <- columns_str E r cols; Ok (lit "CONCAT" ++ paren s)  (* 105-109 *)
  | VGroupConcat cols ords sep =>                               (* functions.py:120-136 *)
      do s <- columns_str E r cols;
      do o <- part_ctx (negb (is_nilb ords)) (orders_str E r (lit "ORDER BY") ords);
      do p <- (if truthy sep then do x <- sqlvalue E r sep; Ok (lit " SEPARATOR " ++ x) else Ok []);
      Ok (lit "GROUP_CONCAT" ++ paren (s ++ o ++ p))
  | VConvert e ty =>                                            (* functions.py:172-177 *)
      do s <- expr_str E r e;
      Ok (lit "CONVERT" ++ paren (s ++ lit ", " ++ (match ty with Some t => t | None => lit "None" end)))
  | VSelect q => select_str E r q
  | VUnion t a b =>                                             (* union.py:33-38 *)
      do x <- r a; do y <- r b;
      Ok (x ++ (match t with UUnion => lit " UNION " | UAll => lit " UNION ALL " end) ++ y)
  | VInsert q => insert_str E r q
  | VUpdate q => update_str E r q
  | VDelete q => delete_str E r q
  | _ => pytext E v
  end.

Fixpoint text_n (E : env) (n : nat) (v : val) : res str :=
  match n with
  | O => Err EUnmodelled                 (* not reached: see RenderFacts.text_unfold *)
  | S k => str_body E (text_n E k) v
  end.
(** str(v). *)
Definition text (E : env) (v : val) : res str := text_n E (depth v) v.
(** a == b. *)
Definition py_eq (E : env) (a b : val) : res bool := pyeq (text E) a b.
